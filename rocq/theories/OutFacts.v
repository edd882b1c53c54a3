(** * Facts about the texts and dictionaries of answers (OutModel.v). *)
From Coq Require Import ZArith List Bool Arith String Ascii Lia Permutation.
From Verif Require Import IntervalModel TextModel TextFacts PortProtoModel ConnTextModel GraphModel GraphFacts PeerModel PolicyModel QueryModel YamlModel ExplModel ExplFacts OutModel.
Import ListNotations.
Local Open Scope string_scope.
Local Open Scope list_scope.
Local Open Scope nat_scope.

(** ** Cutting texts *)
Lemma cut : forall c a b x y, has_char c a = false -> has_char c b = false -> (a ++ String c x = b ++ String c y)%string -> a = b /\ x = y.
Proof.
  intros c. induction a as [|u a IH]; intros [|v b] x y Ha Hb E; cbn in *.
  - injection E as ->. auto.
  - injection E as <- _. rewrite Ascii.eqb_refl in Hb. discriminate.
  - injection E as -> _. rewrite Ascii.eqb_refl in Ha. discriminate.
  - apply orb_false_iff in Ha as [_ Ha]. apply orb_false_iff in Hb as [_ Hb]. injection E as <- E. destruct (IH b x y Ha Hb E) as [-> ->]. auto.
Qed.
(** Texts without a blank after a colon. *)
Fixpoint colon_blank (s : string) : bool :=
  match s with String a (String b _ as t) => (Ascii.eqb a ":" && Ascii.eqb b " ") || colon_blank t | _ => false end.
Lemma colon_tail : forall a s, colon_blank (String a s) = false -> colon_blank s = false.
Proof. intros a [|b s] H; auto. cbn in H. apply orb_false_iff in H as [_ H]. exact H. Qed.
Lemma cut_colon : forall a b x y, colon_blank a = false -> colon_blank b = false -> (a ++ String ":" (String " " x) = b ++ String ":" (String " " y))%string -> a = b /\ x = y.
Proof.
  assert (Z : forall b x y, colon_blank b = false -> (String ":" (String " " x) = b ++ String ":" (String " " y))%string -> b = "" /\ x = y).
  { intros [|u [|v b]] x y H E; cbn [append] in E.
    - injection E as ->. auto.
    - discriminate.
    - injection E as <- <- _. discriminate. }
  induction a as [|u a IH]; intros b x y Ha Hb E.
  - destruct (Z b x y Hb E) as [-> ->]. auto.
  - destruct b as [|v b]; [destruct (Z _ y x Ha (eq_sym E)) as [X _]; discriminate|]. cbn [append] in E. injection E as <- E.
    destruct (IH b x y (colon_tail _ _ Ha) (colon_tail _ _ Hb) E) as [-> ->]. auto.
Qed.
Lemma colon_quote : forall n r, has_char " " n = false -> colon_blank r = false -> colon_blank (n ++ String "'" r) = false.
Proof.
  induction n as [|a n IH]; intros r H R; [destruct r; [reflexivity|cbn in *; exact R]|]. cbn [has_char] in H. apply orb_false_iff in H as [_ H]. specialize (IH r H R).
  destruct n as [|b n]; cbn [append colon_blank] in *; [rewrite andb_false_r; exact IH|]. cbn [has_char] in H. apply orb_false_iff in H as [H _]. rewrite H, andb_false_r. exact IH.
Qed.
Lemma colon_after : forall a s, a <> ":"%char -> colon_blank s = false -> colon_blank (String a s) = false.
Proof. intros a s N H. destruct s as [|b s]; auto. cbn in *. rewrite H. destruct (Ascii.eqb_spec a ":"); [congruence|reflexivity]. Qed.
Lemma tail_inj : forall s a b : string, (a ++ s = b ++ s)%string -> a = b.
Proof.
  intros s a. induction a as [|u a IH]; intros [|v b] E; cbn in E; auto.
  - exfalso. apply (f_equal String.length) in E. cbn in E. rewrite length_app_s in E. lia.
  - exfalso. apply (f_equal String.length) in E. cbn in E. rewrite length_app_s in E. lia.
  - injection E as <- E. f_equal. auto.
Qed.
Lemma join_free_inj : forall l m, Forall (fun s => s <> "" /\ has_char "," s = false) l -> Forall (fun s => s <> "" /\ has_char "," s = false) m -> join ", " l = join ", " m -> l = m.
Proof.
  assert (Z : forall a l, Forall (fun s => s <> "" /\ has_char "," s = false) (a :: l) -> join ", " (a :: l) <> "").
  { intros a l F. inversion F as [|? ? [N _] _]; subst. destruct l; cbn; [auto|]. destruct a; [congruence|discriminate]. }
  induction l as [|a l IH]; intros [|b m] Fl Fm E; auto.
  - exfalso. apply (Z b m Fm). auto.
  - exfalso. apply (Z a l Fl). auto.
  - inversion Fl as [|? ? [Na Ca] Fl']; inversion Fm as [|? ? [Nb Cb] Fm']; subst.
    assert (H : forall x y r, Forall (fun s => s <> "" /\ has_char "," s = false) [x] -> join ", " [x] = join ", " (y :: r) -> r = []).
    { intros x y r Fx H. destruct r as [|z r]; auto. exfalso. inversion Fx as [|? ? [_ Cx] _]; subst. change (x = (y ++ ", " ++ join ", " (z :: r))%string) in H.
      rewrite H, has_char_app in Cx. apply orb_false_iff in Cx as [_ Cx]. cbn in Cx. discriminate. }
    destruct l as [|a' l].
    + assert (M : m = []) by (apply (H a b m); [repeat constructor; auto|exact E]). subst m. cbn in E. subst. reflexivity.
    + destruct m as [|b' m]; [symmetry in E; specialize (H b a (a' :: l) ltac:(repeat constructor; auto) E); discriminate|].
      change ((a ++ String "," (" " ++ join ", " (a' :: l)))%string = (b ++ String "," (" " ++ join ", " (b' :: m)))%string) in E.
      destruct (cut _ _ _ _ _ Ca Cb E) as [-> E']. injection E' as E'. f_equal. apply IH; auto.
Qed.
Lemma py_list_colon : forall l, (forall n, In n l -> has_char " " n = false) -> colon_blank (py_list l) = false.
Proof.
  intros l H. unfold py_list. apply colon_after; [discriminate|]. induction l as [|n l IH]; [reflexivity|].
  assert (Hn := H n (or_introl eq_refl)). assert (Hl : forall m, In m l -> has_char " " m = false) by (intros; apply H; right; auto). specialize (IH Hl).
  destruct l as [|m l].
  - cbn [map join]. rewrite app_assoc_s. apply colon_after; [discriminate|]. rewrite app_assoc_s. apply colon_quote; auto.
  - change (join ", " (map (fun n => "'" ++ n ++ "'")%string (n :: m :: l))) with (("'" ++ n ++ "'") ++ ", " ++ join ", " (map (fun n => "'" ++ n ++ "'")%string (m :: l)))%string.
    rewrite !app_assoc_s. apply colon_after; [discriminate|]. apply colon_quote; auto. apply colon_after; [discriminate|]. apply colon_after; [discriminate|]. exact IH.
Qed.
Lemma py_list_inj : forall l m, (forall n, In n l -> has_char "," n = false) -> (forall n, In n m -> has_char "," n = false) -> py_list l = py_list m -> l = m.
Proof.
  assert (Q : forall l, (forall n, In n l -> has_char "," n = false) -> Forall (fun s => s <> "" /\ has_char "," s = false) (map (fun n => "'" ++ n ++ "'")%string l)).
  { intros l H. apply Forall_map, Forall_forall. intros n Hn. split; [discriminate|]. cbn [has_char append]. rewrite has_char_app, (H n Hn). reflexivity. }
  intros l m Hl Hm E. unfold py_list in E. injection E as E. apply tail_inj in E. apply join_free_inj in E; auto.
  clear Hl Hm. revert m E. induction l as [|a l IH]; intros [|b m] E; try discriminate; auto. cbn [map] in E. injection E as E1 E2. apply tail_inj in E1. subst. f_equal. auto.
Qed.
Lemma str_nat_fine : forall n, str_nat n <> "" /\ has_char "," (str_nat n) = false /\ has_char newline (str_nat n) = false.
Proof.
  intros n. unfold str_nat. destruct (str_of_Z_digits (Z.of_nat n) ltac:(lia)) as [D N]. split; auto.
  split; apply digits_nochar; auto.
Qed.
Lemma nums_inj : forall l m, join ", " (map str_nat l) = join ", " (map str_nat m) -> l = m.
Proof.
  intros l m E. apply join_free_inj in E.
  - revert m E. induction l as [|a l IH]; intros [|b m] E; try discriminate; auto. injection E as E1 E2. apply str_nat_inj in E1. subst. f_equal. auto.
  - apply Forall_map, Forall_forall. intros x _. split; apply str_nat_fine.
  - apply Forall_map, Forall_forall. intros x _. split; apply str_nat_fine.
Qed.

(** ** Lines *)
Definition unlines (l : list string) : string := fold_right (fun x r => (x ++ nl ++ r)%string) "" l.
Lemma unlines_app : forall a b, unlines (a ++ b) = (unlines a ++ unlines b)%string.
Proof. induction a as [|x a IH]; intros b; cbn; auto. rewrite IH. rewrite !app_assoc_s. reflexivity. Qed.
Lemma unlines_inj : forall l m, Forall (fun s => has_char newline s = false) l -> Forall (fun s => has_char newline s = false) m -> unlines l = unlines m -> l = m.
Proof.
  assert (Z : forall x r, (x ++ String newline r)%string <> "") by (intros [|c x] r; discriminate).
  induction l as [|a l IH]; intros [|b m] Fl Fm E; auto.
  - exfalso. apply (Z b (unlines m)). symmetry. exact E.
  - exfalso. apply (Z a (unlines l)). exact E.
  - inversion Fl; inversion Fm; subst. destruct (cut newline a b (unlines l) (unlines m)) as [-> E']; auto. f_equal. auto.
Qed.
(** Lines that are not empty, followed by nothing or an empty line. *)
Definition stops (t : list string) : Prop := match t with [] => True | x :: _ => x = "" end.
Lemma runs : forall l m t u, Forall (fun s => s <> "") l -> Forall (fun s => s <> "") m -> stops t -> stops u -> l ++ t = m ++ u -> l = m /\ t = u.
Proof.
  induction l as [|a l IH]; intros [|b m] t u Fl Fm St Su E; cbn in E; auto.
  - subst t. cbn in St. inversion Fm; subst. congruence.
  - subst u. cbn in Su. inversion Fl; subst. congruence.
  - injection E as <- E. inversion Fl; inversion Fm; subst. destruct (IH m t u) as [-> ->]; auto.
Qed.
Lemma rules_fold : forall ing d r, fold_left (fun r e => (r ++ rules_line ing e ++ nl)%string) d r = (r ++ unlines (map (rules_line ing) d))%string.
Proof.
  intros ing. induction d as [|e d IH]; intros r; cbn [fold_left map unlines fold_right]; [symmetry; apply app_nil_s|]. rewrite IH. fold (unlines (map (rules_line ing) d)). rewrite !app_assoc_s. reflexivity.
Qed.
Definition rules_lines (desc : string) (ing : bool) (d : list (string * list nat)) : list string :=
  if nonempty d then "" :: (xgress_description desc ing ++ ":")%string :: map (rules_line ing) d else [].
Lemma rules_str_lines : forall desc ing d, (if nonempty d then rules_str desc ing d else "") = unlines (rules_lines desc ing d).
Proof.
  intros desc ing d. unfold rules_lines. destruct (nonempty d); [|reflexivity]. unfold rules_str. rewrite rules_fold. cbn [unlines fold_right]. fold (unlines (map (rules_line ing) d)).
  rewrite !app_assoc_s. reflexivity.
Qed.

(** ** Words *)
Definition solid (s : string) : Prop := s <> "" /\ split_if is_space s = [s].
Lemma split_if_app : forall f a b, split_if f a = [a] -> f " "%char = true -> split_if f (a ++ String " " b) = a :: split_if f b.
Proof.
  intros f a b H S. induction a as [|c a IH]; cbn in *; [rewrite S; reflexivity|]. destruct (f c); [discriminate|].
  destruct (split_if f a) as [|x r] eqn:E; [destruct a; cbn in E; [discriminate|destruct (f a); [discriminate|destruct (split_if f a0); discriminate]]|].
  injection H as -> ->. rewrite IH by auto. reflexivity.
Qed.
Lemma words_one : forall a, solid a -> words a = [a].
Proof. intros a [N S]. unfold words. rewrite S. cbn. destruct (String.eqb_spec a ""); [congruence|reflexivity]. Qed.
Lemma words_two : forall a b, solid a -> solid b -> words (a ++ String " " b) = [a; b].
Proof.
  intros a b [Na Sa] [Nb Sb]. unfold words. rewrite split_if_app by auto. rewrite Sb. cbn. destruct (String.eqb_spec a ""); [congruence|]. destruct (String.eqb_spec b ""); [congruence|]. reflexivity.
Qed.
Lemma mapM_some : forall {A B} (f : A -> option B) (h : A -> B) l, (forall a, In a l -> f a = Some (h a)) -> mapM f l = Some (map h l).
Proof. induction l as [|a l IH]; intros H; cbn; auto. rewrite (H a (or_introl eq_refl)), IH by (intros; apply H; right; auto). reflexivity. Qed.

(** ** Dictionaries of rules *)
Section Rules.
Context {C : Type}.
Definition entries (f : @policy C -> list nat) (ps : list (@policy C)) : list (string * list nat) := map (fun p => (title p, f p)) (filter (fun p => nonempty (f p)) ps).
Lemma dput_new : forall {V} (d : list (string * V)) k v, ~ In k (map fst d) -> dput d k v = d ++ [(k, v)].
Proof.
  intros V d k v N. unfold dput. destruct (existsb (fun e => String.eqb (fst e) k) d) eqn:E; auto. exfalso. apply existsb_exists in E as (e & H & Q). apply String.eqb_eq in Q. subst k.
  apply N. apply in_map. auto.
Qed.
Lemma rule_lists_entries : forall f ps, NoDup (map title ps) -> rule_lists f ps = entries f ps.
Proof.
  intros f ps. unfold rule_lists.
  assert (G : forall d, (forall p, In p ps -> ~ In (title p) (map fst d)) -> NoDup (map title ps) ->
            fold_left (fun d p => if nonempty (f p) then dput d (title p) (f p) else d) ps d = d ++ entries f ps).
  { induction ps as [|p ps IH]; intros d N D; cbn [fold_left]; [unfold entries; cbn; rewrite app_nil_r; reflexivity|].
    cbn in D. inversion D as [|? ? Np D']; subst. unfold entries. cbn [filter]. destruct (nonempty (f p)) eqn:E.
    - rewrite IH; auto.
      + rewrite dput_new by (apply N; left; auto). rewrite <- app_assoc. reflexivity.
      + intros q Hq. rewrite dput_new by (apply N; left; auto). rewrite map_app, in_app_iff. intros [H|[H|[]]]; [apply (N q); [right; auto|auto]|]. cbn in H. apply Np. rewrite H. apply in_map. auto.
    - apply IH; auto. intros q Hq. apply N. right. auto. }
  intros D. rewrite (G []); auto.
Qed.
Definition sum (l : list (string * list nat)) : nat := fold_right (fun e n => List.length (snd e) + n) 0 l.
Lemma sum_entries : forall f ps, sum (entries f ps) = fold_right (fun p n => List.length (f p) + n) 0 ps.
Proof.
  intros f. induction ps as [|p ps IH]; cbn; auto. unfold entries in *. cbn [filter]. destruct (f p) eqn:E; cbn; [auto|]. rewrite E. cbn. f_equal. auto.
Qed.
Lemma count_fold : forall (ps : list (@policy C)) n, fold_left (fun n p => n + (if pbool (p_selected p) then 0 else 1) + List.length (empty_rules p true) + List.length (empty_rules p false)) ps n =
  n + List.length (filter (fun p => negb (pbool (p_selected p))) ps) + fold_right (fun p n => List.length (empty_rules p true) + n) 0 ps + fold_right (fun p n => List.length (empty_rules p false) + n) 0 ps.
Proof.
  induction ps as [|p ps IH]; intros n; cbn [fold_left filter fold_right]; [cbn; lia|]. rewrite IH. destruct (pbool (p_selected p)); cbn [negb List.length]; lia.
Qed.
Lemma sum_perm : forall (h : @policy C -> nat) l m, Permutation l m -> fold_right (fun p n => h p + n) 0 l = fold_right (fun p n => h p + n) 0 m.
Proof. intros h l m P. induction P; cbn; lia. Qed.
Lemma filter_perm : forall {X} (f : X -> bool) l m, Permutation l m -> Permutation (filter f l) (filter f m).
Proof. intros X f l m P. induction P; cbn; auto. - destruct (f x); auto. - destruct (f x), (f y); auto. apply perm_swap. - eapply perm_trans; eauto. Qed.
Lemma emptiness_num : forall order (g : @config C), Permutation (order (layer_policies g)) (layer_policies g) ->
  fold_left (fun n p => n + (if pbool (p_selected p) then 0 else 1) + List.length (empty_rules p true) + List.length (empty_rules p false)) (order (layer_policies g)) 0 = emptiness_count g.
Proof.
  intros order g P. unfold emptiness_count. rewrite !count_fold. rewrite (sum_perm _ _ _ P), (sum_perm (fun p => List.length (empty_rules p false)) _ _ P).
  rewrite (Permutation_length (filter_perm (fun p => negb (pbool (p_selected p))) _ _ P)). reflexivity.
Qed.
End Rules.
Lemma empty_from_In : forall {C} c (rs : list (@rule C)) k i, In i (empty_from c k rs) <-> exists j r, i = k + j /\ nth_error rs j = Some r /\ rule_empty c r = true.
Proof.
  intros C c. induction rs as [|r rs IH]; intros k i; cbn [empty_from].
  - split; [intros []|intros (j & r & _ & E & _); destruct j; discriminate].
  - assert (H : In i (empty_from c (S k) rs) <-> exists j r0, i = k + S j /\ nth_error rs j = Some r0 /\ rule_empty c r0 = true).
    { rewrite IH. split; intros (j & r0 & E & H); exists j, r0; split; auto; lia. }
    destruct (rule_empty c r) eqn:E.
    + cbn. rewrite H. split.
      * intros [<-|(j & r0 & X & Y)]; [exists 0, r; repeat split; auto; lia|exists (S j), r0; auto].
      * intros ([|j] & r0 & X & Y & Z); [left; lia|right; exists j, r0; auto].
    + rewrite H. split; [intros (j & r0 & X & Y); exists (S j), r0; auto|].
      intros ([|j] & r0 & X & Y & Z); [cbn in Y; injection Y as <-; congruence|exists j, r0; auto].
Qed.
Lemma dedup_In : forall l x, In x (dedup l) <-> In x l.
Proof.
  induction l as [|a l IH]; intros x; cbn [dedup]; [tauto|]. destruct (existsb (String.eqb a) l) eqn:E; cbn; rewrite IH; [|tauto].
  apply existsb_exists in E as (b & H & Q). apply String.eqb_eq in Q. subst b. split; [auto|intros [<-|H']; auto].
Qed.
Lemma dedup_nodup : forall l, NoDup (dedup l).
Proof.
  induction l as [|a l IH]; cbn [dedup]; [constructor|]. destruct (existsb (String.eqb a) l) eqn:E; auto. constructor; auto. rewrite dedup_In. intros H.
  assert (X : existsb (String.eqb a) l = true) by (apply existsb_exists; exists a; split; auto; apply String.eqb_refl). congruence.
Qed.
Lemma sorted_length : forall l, NoDup l -> List.length (sorted_set l) = List.length l.
Proof.
  intros l N. apply Permutation_length, NoDup_Permutation; auto; [apply sorted_set_nodup|]. intros x. apply sorted_set_In.
Qed.
