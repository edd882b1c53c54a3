(** * C79 and C80: the texts and dictionaries of explanations (specification in PropOut.v). *)
From Coq Require Import ZArith List Bool Arith String Ascii Lia Permutation.
From Verif Require Import IntervalModel TextModel TextFacts PortProtoModel ConnTextModel GraphModel GraphFacts IpTextFacts PeerModel PolicyModel QueryModel YamlModel ExplModel ExplFacts OutModel OutFacts PropOut.
Import ListNotations.
Local Open Scope string_scope.
Local Open Scope list_scope.
Local Open Scope nat_scope.

(** ** C79 *)
(** Names without commas and ends of lines. *)
Definition tame (s : string) : Prop := s <> "" /\ has_char "," s = false /\ has_char newline s = false.
Definition one_line (s : string) : Prop := has_char newline s = false.
Section Texts.
Context {C : Type} (cstr : C -> string) (cdiff : C -> C -> string -> string -> string).
Notation in_str := (in_str cstr cdiff).
Definition rules_tame (pols : list string) (ing eg : list (string * list nat)) : Prop :=
  Forall tame pols /\ Forall (fun e => tame (fst e)) ing /\ Forall (fun e => tame (fst e)) eg.
Lemma rules_line_inj : forall d e f, tame (fst e) -> tame (fst f) -> rules_line d e = rules_line d f -> e = f.
Proof.
  intros d [t l] [u m] (_ & Ht & _) (_ & Hu & _) E. cbn in Ht, Hu. unfold rules_line in E. cbn [fst snd] in E.
  change ((t ++ String "," (" " ++ direction d ++ " rules indexes: " ++ join ", " (map str_nat l)))%string = (u ++ String "," (" " ++ direction d ++ " rules indexes: " ++ join ", " (map str_nat m)))%string) in E.
  destruct (cut _ _ _ _ _ Ht Hu E) as [-> E']. apply app_inj in E'. apply app_inj in E'. apply app_inj in E'. apply nums_inj in E'. subst. reflexivity.
Qed.
Lemma join_line : forall l, Forall (fun s => has_char newline s = false) l -> has_char newline (join ", " l) = false.
Proof. intros l F. apply join_free; [apply Forall_forall; exact F|reflexivity]. Qed.
Lemma rules_line_ok : forall d e, tame (fst e) -> has_char newline (rules_line d e) = false /\ rules_line d e <> "".
Proof.
  intros d [t l] (N & _ & H). cbn in N, H. unfold rules_line. cbn [fst snd]. split.
  - rewrite !has_char_app, H. rewrite join_line by (apply Forall_map, Forall_forall; intros x _; apply str_nat_fine). destruct d; reflexivity.
  - destruct t; [congruence|discriminate].
Qed.
Lemma map_inj : forall {X Y} (f : X -> Y) (P : X -> Prop), (forall a b, P a -> P b -> f a = f b -> a = b) -> forall l m, Forall P l -> Forall P m -> map f l = map f m -> l = m.
Proof. intros X Y f P H. induction l as [|a l IH]; intros [|b m] Fl Fm E; try discriminate; auto. injection E as E1 E2. inversion Fl; inversion Fm; subst. f_equal; auto. Qed.
Definition pols_lines (desc : string) (pols : list string) : list string := if nonempty pols then [("Policies" ++ desc ++ ":")%string; join ", " pols] else [].
Lemma rules_text_lines : forall desc pols ing eg, in_str (ERules desc pols ing eg) = Some (unlines (pols_lines desc pols ++ rules_lines desc true ing ++ rules_lines desc false eg)).
Proof.
  intros desc pols ing eg. cbn [OutModel.in_str]. rewrite !rules_str_lines, !unlines_app. f_equal. f_equal. unfold pols_lines. destruct (nonempty pols); [|reflexivity]. cbn [unlines fold_right]. rewrite !app_assoc_s. rewrite app_nil_s. reflexivity.
Qed.
Lemma rules_lines_ok : forall desc d e, one_line desc -> Forall (fun e => tame (fst e)) e -> Forall (fun s => has_char newline s = false) (rules_lines desc d e).
Proof.
  intros desc d e D F. unfold rules_lines. destruct (nonempty e); [|constructor]. constructor; [reflexivity|]. constructor.
  - unfold xgress_description. rewrite !has_char_app, D. destruct d; reflexivity.
  - apply Forall_map. eapply Forall_impl; [|exact F]. intros x H. apply rules_line_ok. auto.
Qed.
Lemma rules_lines_stops : forall desc d e, stops (rules_lines desc d e).
Proof. intros desc d e. unfold rules_lines. destruct (nonempty e); cbn; auto. Qed.
(** Equal texts of rules list equal policies and rules. *)
Theorem C79_rules_text : forall desc pols ing eg pols' ing' eg', one_line desc -> rules_tame pols ing eg -> rules_tame pols' ing' eg' ->
  in_str (ERules desc pols ing eg) = in_str (ERules desc pols' ing' eg') -> pols = pols' /\ ing = ing' /\ eg = eg'.
Proof.
  intros desc pols ing eg pols' ing' eg' D (Fp & Fi & Fe) (Fp' & Fi' & Fe') E. rewrite !rules_text_lines in E. injection E as E.
  assert (PL : forall l, Forall tame l -> Forall (fun s => has_char newline s = false) (pols_lines desc l)).
  { intros l F. unfold pols_lines. destruct (nonempty l); [|constructor]. constructor; [rewrite !has_char_app, D; reflexivity|]. constructor; [|constructor].
    apply join_line. eapply Forall_impl; [|exact F]. intros s (_ & _ & H). auto. }
  apply unlines_inj in E; [|apply Forall_app; split; [auto|apply Forall_app; split; apply rules_lines_ok; auto]..].
  assert (JP : forall l m, Forall tame l -> Forall tame m -> join ", " l = join ", " m -> l = m).
  { intros l m F G. apply join_free_inj; eapply Forall_impl; try eassumption; intros s (A & B & _); auto. }
  assert (ST : forall i e, stops (rules_lines desc true i ++ rules_lines desc false e)).
  { intros i e. unfold rules_lines. destruct (nonempty i), (nonempty e); cbn; auto. }
  assert (E1 : pols = pols' /\ rules_lines desc true ing ++ rules_lines desc false eg = rules_lines desc true ing' ++ rules_lines desc false eg').
  { unfold pols_lines in E. destruct pols as [|p pols], pols' as [|p' pols']; cbn [nonempty app] in E.
    - auto.
    - exfalso. assert (S := ST ing eg). rewrite E in S. cbn in S. discriminate.
    - exfalso. assert (S := ST ing' eg'). rewrite <- E in S. cbn in S. discriminate.
    - injection E as E1 E2. split; auto. }
  destruct E1 as [-> E1]. split; auto.
  assert (LI : forall d e f, Forall (fun e => tame (fst e)) e -> Forall (fun e => tame (fst e)) f -> map (rules_line d) e = map (rules_line d) f -> e = f).
  { intros d e f F G. apply (map_inj _ (fun e => tame (fst e))); auto. intros a b Ha Hb. apply rules_line_inj; auto. }
  assert (LN : forall d e, Forall (fun e => tame (fst e)) e -> Forall (fun s => s <> "") (map (rules_line d) e)).
  { intros d e F. apply Forall_map. eapply Forall_impl; [|exact F]. intros a Ha. apply rules_line_ok. auto. }
  assert (EG : rules_lines desc false eg = rules_lines desc false eg' -> eg = eg').
  { unfold rules_lines. destruct eg as [|a eg], eg' as [|b eg']; cbn [nonempty]; intros X; try discriminate; auto. injection X as X. apply (LI false); auto. cbn [map]. congruence. }
  assert (HD : forall i e, i <> [] -> rules_lines desc true i <> rules_lines desc false e /\ forall t, rules_lines desc true i ++ t <> rules_lines desc false e).
  { intros i e N. assert (X : forall t, rules_lines desc true i ++ t <> rules_lines desc false e).
    { intros t X. unfold rules_lines in X. destruct i; [congruence|]. cbn [nonempty app] in X. destruct (nonempty e); [|discriminate]. injection X as X _. discriminate. }
    split; auto. intros Y. apply (X []). rewrite app_nil_r. auto. }
  destruct ing as [|a ing], ing' as [|b ing'].
  - cbn [rules_lines nonempty app] in E1. auto.
  - exfalso. unfold rules_lines at 1 in E1. cbn [nonempty app] in E1. symmetry in E1. revert E1. apply HD. discriminate.
  - exfalso. unfold rules_lines at 3 in E1. cbn [nonempty app] in E1. revert E1. apply HD. discriminate.
  - unfold rules_lines at 1 3 in E1. cbn [nonempty app] in E1. apply (f_equal (fun l => tl (tl l))) in E1. cbn [tl] in E1.
    change ((map (rules_line true) (a :: ing)) ++ rules_lines desc false eg = (map (rules_line true) (b :: ing')) ++ rules_lines desc false eg') in E1.
    apply runs in E1 as [E1 E2]; [|apply LN; auto|apply LN; auto|apply rules_lines_stops|apply rules_lines_stops]. split; [|auto]. apply (LI true); auto.
Qed.

(** Overlaps. *)
Definition common_tame (r : common) : Prop :=
  has_char ":" (co_type1 r) = false /\ one_line (co_type1 r) /\ has_char ":" (co_type2 r) = false /\ one_line (co_type2 r) /\
  has_char "," (co_name1 r) = false /\ one_line (co_name1 r) /\ has_char "," (co_name2 r) = false /\ one_line (co_name2 r) /\ Forall tame (co_pods r).
Lemma common_inj : forall r s, common_tame r -> common_tame s -> common_str r = common_str s -> r = s.
Proof.
  intros [t1 n1 t2 n2 ps] [t1' n1' t2' n2' ps'] (A1 & _ & A2 & _ & A3 & _ & A4 & _ & A5) (B1 & _ & B2 & _ & B3 & _ & B4 & _ & B5) E. cbn in A1, A2, A3, A4, A5, B1, B2, B3, B4, B5.
  unfold common_str in E. cbn [co_type1 co_name1 co_type2 co_name2 co_pods] in E.
  assert (S : forall a b c x, (a ++ String b (String c x))%string = ((a ++ String b "") ++ String c x)%string) by (intros; rewrite app_assoc_s; reflexivity).
  assert (T : forall t n x (k : ascii), (t ++ String "_" (String k (String ":" (String " " (n ++ String "," x)))))%string = ((t ++ String "_" (String k "")) ++ String ":" (String " " (n ++ String "," x)))%string)
    by (intros; rewrite app_assoc_s; reflexivity).
  assert (N : forall t k, has_char ":" t = false -> (k =? ":")%char = false -> has_char ":" (t ++ String "_" (String k "")) = false) by (intros t k H K; rewrite has_char_app, H; cbn; rewrite K; reflexivity).
  change ((t1 ++ String "_" (String "1" (String ":" (String " " (n1 ++ String "," (String " " (t2 ++ String "_" (String "2" (String ":" (String " " (n2 ++ String "," (" pods: " ++ join ", " ps))))))))))))%string =
          (t1' ++ String "_" (String "1" (String ":" (String " " (n1' ++ String "," (String " " (t2' ++ String "_" (String "2" (String ":" (String " " (n2' ++ String "," (" pods: " ++ join ", " ps'))))))))))))%string) in E.
  rewrite !T in E. apply cut in E as [E1 E]; [|apply N; auto|apply N; auto]. apply tail_inj in E1. subst t1'. injection E as E. apply cut in E as [-> E]; auto. injection E as E.
  rewrite ?T in E. apply cut in E as [E1 E]; [|apply N; auto|apply N; auto]. apply tail_inj in E1. subst t2'. injection E as E. apply cut in E as [-> E]; auto. injection E as E.
  apply join_free_inj in E; [subst; reflexivity|..]; eapply Forall_impl; try eassumption; intros s (P & Q & _); auto.
Qed.
Lemma common_line : forall r, common_tame r -> has_char newline (common_str r) = false.
Proof.
  intros [t1 n1 t2 n2 ps] (_ & A1 & _ & A2 & _ & A3 & _ & A4 & A5). cbn in A1, A2, A3, A4, A5. unfold one_line in *. unfold common_str. cbn [co_type1 co_name1 co_type2 co_name2 co_pods].
  rewrite !has_char_app, A1, A2, A3, A4. rewrite join_line by (eapply Forall_impl; [|exact A5]; intros s (_ & _ & H); auto). reflexivity.
Qed.
Lemma lines_inj : forall {X} (f : X -> string) (P : X -> Prop), (forall a b, P a -> P b -> f a = f b -> a = b) -> (forall a, P a -> has_char newline (f a) = false) ->
  forall l m, l <> [] -> m <> [] -> Forall P l -> Forall P m -> join nl (map f l) = join nl (map f m) -> l = m.
Proof.
  intros X f P I L l m Nl Nm Fl Fm E. apply (f_equal (split newline)) in E. rewrite !split_join in E.
  - apply (map_inj f P); auto.
  - intros H. apply map_eq_nil in H. auto.
  - apply Forall_map. eapply Forall_impl; [|exact Fm]. auto.
  - intros H. apply map_eq_nil in H. auto.
  - apply Forall_map. eapply Forall_impl; [|exact Fl]. auto.
Qed.
Theorem C79_pairs_text : forall desc l m, l <> [] -> m <> [] -> Forall common_tame l -> Forall common_tame m -> in_str (EPairs desc l) = in_str (EPairs desc m) -> l = m.
Proof.
  intros desc l m Nl Nm Fl Fm E. injection E as E. apply app_inj in E. injection E as E. apply (lines_inj common_str common_tame common_inj common_line l m); auto.
Qed.
(** Pods that are not captured. *)
Theorem C79_pods_text : forall desc i e i' e', one_line desc -> Forall tame i -> Forall tame e -> Forall tame i' -> Forall tame e' ->
  in_str (EPods desc i e true) = in_str (EPods desc i' e' true) -> i = i' /\ e = e'.
Proof.
  intros desc i e i' e' D Fi Fe Fi' Fe' E.
  assert (J : forall l m, Forall tame l -> Forall tame m -> join ", " l = join ", " m -> l = m).
  { intros l m F G. apply join_free_inj; eapply Forall_impl; try eassumption; intros s (A & B & _); auto. }
  pose (sec := fun (x : string) (l : list string) => if nonempty l then [""; (desc ++ x ++ ":")%string; join ", " l] else []).
  assert (T : forall i e, in_str (EPods desc i e true) = Some (unlines (sec "ingress" i ++ sec "egress" e))).
  { intros a b. cbn [OutModel.in_str negb]. rewrite unlines_app. f_equal. f_equal; subst sec; cbv beta; [destruct (nonempty a)|destruct (nonempty b)]; try reflexivity; cbn [unlines fold_right]; unfold pods_str; rewrite app_nil_s, !app_assoc_s; reflexivity. }
  assert (F : forall x l, has_char newline x = false -> Forall tame l -> Forall (fun s => has_char newline s = false) (sec x l)).
  { intros x l H G. subst sec. cbv beta. destruct (nonempty l); [|constructor]. constructor; [reflexivity|]. constructor; [rewrite !has_char_app, D, H; reflexivity|]. constructor; [|constructor].
    apply join_line. eapply Forall_impl; [|exact G]. intros s (_ & _ & K). auto. }
  rewrite !T in E. injection E as E. apply unlines_inj in E; [|apply Forall_app; split; apply F; auto..].
  assert (X : forall t u, (desc ++ "ingress" ++ t)%string = (desc ++ "egress" ++ u)%string -> False) by (intros t u H; apply app_inj in H; discriminate).
  subst sec. cbv beta in E. destruct i as [|a i], e as [|b e], i' as [|a' i'], e' as [|b' e']; cbn [nonempty app] in E; try discriminate; auto;
    try (injection E as E1 E2; exfalso; first [apply app_inj in E1; discriminate]).
  - injection E as E. split; auto.
  - injection E as E. split; auto.
  - injection E as E1 E2. split; auto.
Qed.
(** Connections of one configuration. *)
(** Names and lists of names may have commas, but no blank after a colon. *)
Definition differ_tame (r : @differ C) : Prop := colon_blank (di_src r) = false /\ one_line (di_src r) /\ colon_blank (di_dst r) = false /\ one_line (di_dst r) /\ one_line (cstr (di_conns1 r)).
Theorem C79_conns_text : forall desc n1 n2 l m, l <> [] -> m <> [] -> Forall differ_tame l -> Forall differ_tame m ->
  in_str (EDiff desc l n1 n2 false) = in_str (EDiff desc m n1 n2 false) ->
  map (fun r => (di_src r, di_dst r, cstr (di_conns1 r))) l = map (fun r => (di_src r, di_dst r, cstr (di_conns1 r))) m.
Proof.
  intros desc n1 n2 l m Nl Nm Fl Fm E. injection E as E. apply app_inj in E. injection E as E. apply tail_inj in E.
  pose (str3 := fun t : string * string * string => ("src: " ++ fst (fst t) ++ ", dst: " ++ snd (fst t) ++ ", conn: " ++ snd t)%string).
  pose (tame3 := fun t : string * string * string => colon_blank (fst (fst t)) = false /\ one_line (fst (fst t)) /\ colon_blank (snd (fst t)) = false /\ one_line (snd (fst t)) /\ one_line (snd t)).
  pose (h := fun r : @differ C => (di_src r, di_dst r, cstr (di_conns1 r))).
  assert (M : forall l, map (differ_str cstr cdiff false n1 n2) l = map str3 (map h l)) by (intros k; rewrite map_map; apply map_ext; reflexivity).
  rewrite !M in E. apply (lines_inj str3 tame3) in E; auto.
  - intros [[s d] c] [[s' d'] c'] (A1 & _ & A2 & _) (B1 & _ & B2 & _) H. cbn in A1, A2, B1, B2. unfold str3 in H. cbn [fst snd] in H. apply app_inj in H.
    assert (K : forall a w, colon_blank a = false -> has_char " " w = false -> colon_blank (a ++ ", " ++ w) = false).
    { intros a w Ha Hw. induction a as [|u a IH]; [cbn [append]; apply colon_after; [discriminate|]; apply colon_after; [discriminate|]; clear -Hw; induction w as [|v w IH]; auto; cbn [has_char] in Hw; apply orb_false_iff in Hw as [_ Hw];
        destruct w as [|v' w]; auto; cbn [colon_blank]; cbn [has_char] in Hw; rewrite (proj1 (orb_false_elim _ _ Hw)), andb_false_r; apply IH; auto|].
      specialize (IH (colon_tail _ _ Ha)). destruct a as [|v a]; [cbn [append colon_blank]; cbn [append] in IH; rewrite andb_false_r; exact IH|].
      cbn [append colon_blank] in *. apply orb_false_iff in Ha as [Ha _]. rewrite Ha. exact IH. }
    assert (J : forall a w t, (a ++ String "," (String " " (w ++ String ":" (String " " t))))%string = ((a ++ ", " ++ w) ++ String ":" (String " " t))%string) by (intros; rewrite !app_assoc_s; reflexivity).
    change ((s ++ String "," (String " " ("dst" ++ String ":" (String " " (d ++ String "," (String " " ("conn" ++ String ":" (String " " c))))))))%string =
            (s' ++ String "," (String " " ("dst" ++ String ":" (String " " (d' ++ String "," (String " " ("conn" ++ String ":" (String " " c'))))))))%string) in H.
    rewrite (J s), (J s') in H. apply cut_colon in H as [H1 H]; [|apply K; auto|apply K; auto]. apply tail_inj in H1. subst s'.
    rewrite (J d), (J d') in H. apply cut_colon in H as [H1 H]; [|apply K; auto|apply K; auto]. apply tail_inj in H1. subst. reflexivity.
  - intros [[s d] c] (_ & A & _ & B & D). unfold one_line in *. cbn in A, B, D. unfold str3. cbn [fst snd]. rewrite !has_char_app, A, B, D. reflexivity.
  - intros H. apply map_eq_nil in H. auto.
  - intros H. apply map_eq_nil in H. auto.
  - apply Forall_map. eapply Forall_impl; [|exact Fl]. auto.
  - apply Forall_map. eapply Forall_impl; [|exact Fm]. auto.
Qed.
(** With full explanations the peers are lists: equal texts have equal lists of peers. *)
Definition peers_tame (ns : list string) : Prop := Forall (fun n => has_char "," n = false /\ has_char " " n = false /\ one_line n) ns.
Theorem C79_conns_peers : forall desc n1 n2 (l m : list (list string * list string * C)), l <> [] -> m <> [] ->
  (forall e, In e (l ++ m) -> peers_tame (fst (fst e)) /\ peers_tame (snd (fst e)) /\ one_line (cstr (snd e))) ->
  let shown := map (fun e : list string * list string * C => Differ (py_list (fst (fst e))) (py_list (snd (fst e))) (snd e) (snd e)) in
  in_str (EDiff desc (shown l) n1 n2 false) = in_str (EDiff desc (shown m) n1 n2 false) ->
  map (fun e => (fst e, cstr (snd e))) l = map (fun e => (fst e, cstr (snd e))) m.
Proof.
  intros desc n1 n2 l m Nl Nm H shown E.
  assert (PL : forall ns, peers_tame ns -> colon_blank (py_list ns) = false /\ one_line (py_list ns)).
  { intros ns F. unfold peers_tame in F. rewrite Forall_forall in F. split; [apply py_list_colon; intros n Hn; apply F; auto|]. unfold one_line, py_list. rewrite !has_char_app. rewrite join_line; [reflexivity|].
    apply Forall_map, Forall_forall. intros n Hn. destruct (F n Hn) as (_ & _ & O). unfold one_line in O. cbn [append has_char]. rewrite has_char_app, O. reflexivity. }
  assert (TM : forall k, (forall e, In e k -> In e (l ++ m)) -> Forall differ_tame (shown k)).
  { intros k Hk. apply Forall_map, Forall_forall. intros e He. destruct (H e (Hk e He)) as (A & B & O). destruct (PL _ A), (PL _ B). repeat split; auto. }
  apply C79_conns_text in E; [|intros X; apply map_eq_nil in X; auto|intros X; apply map_eq_nil in X; auto|apply TM; intros; apply in_app_iff; auto|apply TM; intros; apply in_app_iff; auto].
  unfold shown in E. rewrite !map_map in E. cbn [di_src di_dst di_conns1] in E.
  assert (G : forall k k', (forall e, In e (k ++ k') -> peers_tame (fst (fst e)) /\ peers_tame (snd (fst e))) ->
    map (fun e : list string * list string * C => (py_list (fst (fst e)), py_list (snd (fst e)), cstr (snd e))) k = map (fun e => (py_list (fst (fst e)), py_list (snd (fst e)), cstr (snd e))) k' ->
    map (fun e => (fst e, cstr (snd e))) k = map (fun e => (fst e, cstr (snd e))) k').
  { induction k as [|e k IH]; intros [|f k'] Hk X; try discriminate; auto. cbn [map] in X.
    pose proof (f_equal (@tl _) X) as X4. pose proof (f_equal (fun q => fst (fst (hd ("", "", "") q))) X) as X1. pose proof (f_equal (fun q => snd (fst (hd ("", "", "") q))) X) as X2.
    pose proof (f_equal (fun q => snd (hd ("", "", "") q)) X) as X3. cbn [tl hd fst snd] in X1, X2, X3, X4. cbn [map].
    assert (CM : forall ns, peers_tame ns -> forall n, In n ns -> has_char "," n = false) by (intros ns F n Hn; unfold peers_tame in F; rewrite Forall_forall in F; apply F; auto).
    destruct (Hk e) as [A1 A2]; [left; auto|]. destruct (Hk f) as [B1 B2]; [apply in_app_iff; right; left; auto|].
    apply py_list_inj in X1; [|apply CM; auto..]. apply py_list_inj in X2; [|apply CM; auto..].
    rewrite (IH k'); [|intros g Hg; apply Hk; apply in_app_iff in Hg as [Hg|Hg]; [right; apply in_app_iff; auto|right; apply in_app_iff; right; right; auto]|exact X4].
    rewrite X3. destruct e as [[e1 e2] e3], f as [[f1 f2] f3]. cbn in *. subst. reflexivity. }
  apply G; auto. intros e He. destruct (H e He) as (A & B & _). auto.
Qed.
End Texts.
