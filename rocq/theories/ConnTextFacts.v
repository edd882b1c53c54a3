(** * Reading the texts of connections. *)
From Coq Require Import ZArith List Bool Arith Lia String Ascii ZifyBool.
From Verif Require Import IntervalModel IntervalFacts HyperModel HyperFacts HyperTop HyperInst TextModel TextFacts PortProtoModel PortProtoFacts PropInterval PropPorts
                          StdDims FWTextFacts ConnTextModel.
Import ListNotations.
Local Open Scope string_scope.
Local Open Scope list_scope.
Local Open Scope nat_scope.

(** ** Specification: a reader written independently of the printer *)
(** The cubes of a text: what is between "{" and "}". *)
Definition read_bodies (t : string) : option (list string) :=
  match split "{" t with
  | "" :: pieces => mapM (fun p => match split "}" p with [b; r] => if String.eqb r "" || String.eqb r "," then Some b else None | _ => None end) pieces
  | _ => None
  end.
(** A cube "k1:v1,k2:v2,…" where values may contain commas but no colons: a key is what is between the last comma before a colon and the colon. *)
Definition last_comma (s : string) : option (string * string) :=
  match rev (split "," s) with k :: v :: r => Some (join "," (rev (v :: r)), k) | _ => None end.
Fixpoint read_pairs (k : string) (segs : list string) : option (list (string * string)) :=
  match segs with
  | [] => None
  | [v] => Some [(k, v)]
  | s :: t => match last_comma s with
              | Some (v, k') => match read_pairs k' t with Some r => Some ((k, v) :: r) | None => None end
              | None => None
              end
  end.
Definition read_body (b : string) : option (list (string * string)) :=
  if String.eqb b "" then Some [] else match split ":" b with k :: segs => read_pairs k segs | [] => None end.
(** What a value says about a number; [word_says] for the texts of hosts and paths. *)
Definition value_says (word_says : dim -> string -> Z -> Prop) (d : dim) (v : string) (x : Z) : Prop :=
  match d with
  | 2 => PropPorts.says 0%Z 255%Z pname v x
  | 5 => PropPorts.says 0%Z 8%Z mname v x
  | 0 | 1 | 6 | 7 => word_says d v x
  | _ => exists l ab, read_items (split "," v) = Some l /\ In ab l /\ (fst ab <= x <= snd ab)%Z
  end.
(** A connection is in the cube with these items; in one of the cubes of the text; in the set described by the text. *)
Definition in_items ws (items : list (string * string)) (pt : dim -> Z) : Prop :=
  forall k v, In (k, v) items -> exists d, nth_error dim_names d = Some k /\ value_says ws d v (pt d).
Definition in_cubes ws (t : string) (pt : dim -> Z) : Prop :=
  exists bodies b items, read_bodies t = Some bodies /\ In b bodies /\ read_body b = Some items /\ in_items ws items pt.
Definition meaning ws (t : string) (pt : dim -> Z) : Prop :=
  if String.eqb t "All connections" then True
  else if String.eqb t "No connections" then False
  else if prefix "All but " t then ~ in_cubes ws (substring 8 (String.length t - 8) t) pt
  else in_cubes ws t pt.

(** ** Texts *)
Definition quiet (s : string) : bool := negb (has_char ":" s) && negb (has_char "{" s) && negb (has_char "}" s) && negb (has_char newline s).
Lemma quiet_app : forall a b, quiet (a ++ b)%string = quiet a && quiet b.
Proof. intros a b. unfold quiet. rewrite !has_char_app. destruct (has_char ":" a), (has_char ":" b), (has_char "{" a), (has_char "{" b), (has_char "}" a), (has_char "}" b), (has_char newline a), (has_char newline b); reflexivity. Qed.
Lemma quiet_join : forall sep l, quiet sep = true -> (forall s, In s l -> quiet s = true) -> quiet (join sep l) = true.
Proof.
  induction l as [|x l IH]; intros Q H; [reflexivity|]. destruct l as [|y l]; [apply H; left; reflexivity|].
  change (join sep (x :: y :: l)) with (x ++ sep ++ join sep (y :: l))%string. rewrite !quiet_app, Q, (H x (or_introl eq_refl)), IH; auto. intros s Hs. apply H. right. exact Hs.
Qed.
Lemma quiet_inv : forall s, quiet s = true -> has_char ":" s = false /\ has_char "{" s = false /\ has_char "}" s = false /\ has_char newline s = false.
Proof. intros s H. unfold quiet in H. rewrite !andb_true_iff, !negb_true_iff in H. tauto. Qed.
Lemma join_cons2 : forall sep a b l, join sep (a :: b :: l) = (a ++ sep ++ join sep (b :: l))%string.
Proof. reflexivity. Qed.
Lemma split_snoc : forall c v k, has_char c k = false -> split c (v ++ String c k) = split c v ++ [k].
Proof.
  intros c v k H. induction v as [|a v IH]; cbn [append split].
  - rewrite Ascii.eqb_refl. rewrite TextFacts.split_nochar by exact H. reflexivity.
  - rewrite IH. destruct (Ascii.eqb a c); [reflexivity|]. destruct (split c v) eqn:E; [destruct (split_ne c v E)|reflexivity].
Qed.
Lemma join_split : forall c v, join (String c "") (split c v) = v.
Proof.
  intros c v. induction v as [|a v IH]; [reflexivity|]. cbn [split]. destruct (Ascii.eqb_spec a c) as [->|N].
  - destruct (split c v) as [|x r] eqn:E; [destruct (split_ne c v E)|]. rewrite join_cons2, IH. reflexivity.
  - destruct (split c v) as [|x r] eqn:E; [destruct (split_ne c v E)|]. destruct r as [|y r]; [cbn [join] in *; congruence|]. rewrite join_cons2 in *. cbn [append]. rewrite <- IH. reflexivity.
Qed.
Lemma last_comma_app : forall v k, has_char "," k = false -> last_comma (v ++ "," ++ k)%string = Some (v, k).
Proof.
  intros v k H. unfold last_comma. change ("," ++ k)%string with (String "," k). rewrite split_snoc by exact H. rewrite rev_app_distr. change (rev [k] ++ rev (split "," v)) with (k :: rev (split "," v)). cbn match.
  destruct (rev (split "," v)) as [|x r] eqn:E.
  - apply (f_equal (@rev string)) in E. rewrite rev_involutive in E. cbn in E. destruct (split_ne "," v E).
  - apply (f_equal (@rev string)) in E. rewrite rev_involutive in E. rewrite <- E. f_equal. f_equal. exact (join_split "," v).
Qed.

(** Cubes *)
Definition item_text (kv : string * string) : string := (fst kv ++ ":" ++ snd kv)%string.
Definition key_fine (k : string) : Prop := quiet k = true /\ has_char "," k = false.
Lemma read_pairs_ok : forall items k v, quiet v = true -> (forall k' v', In (k', v') items -> key_fine k' /\ quiet v' = true) ->
  read_pairs k (split ":" (match items with [] => v | _ => v ++ "," ++ join "," (map item_text items) end)%string) = Some ((k, v) :: items).
Proof.
  induction items as [|[k1 v1] items IH]; intros k v Qv H.
  - rewrite TextFacts.split_nochar by apply (quiet_inv v Qv). reflexivity.
  - destruct (H k1 v1 (or_introl eq_refl)) as [[Qk Nk] Qv1].
    assert (E : (v ++ "," ++ join "," (map item_text ((k1, v1) :: items)))%string =
                ((v ++ "," ++ k1) ++ String ":" (match items with [] => v1 | _ => v1 ++ "," ++ join "," (map item_text items) end))%string).
    { destruct items as [|[k2 v2] items]; cbn [map]; unfold item_text at 1; cbn [fst snd].
      - cbn [join]. rewrite !app_assoc_s. reflexivity.
      - rewrite join_cons2. rewrite !app_assoc_s. cbn [append]. reflexivity. }
    cbn beta iota match. rewrite E. rewrite split_app_char.
    + specialize (IH k1 v1 Qv1 (fun k' v' Hi => H k' v' (or_intror Hi))).
      remember (split ":" (match items with [] => v1 | _ => (v1 ++ "," ++ join "," (map item_text items))%string end)) as segs eqn:Es.
      cbn [read_pairs]. destruct segs as [|s segs]; [discriminate IH|]. rewrite last_comma_app by exact Nk. rewrite IH. reflexivity.
    + assert (Q : quiet (v ++ "," ++ k1)%string = true) by (rewrite !quiet_app, Qv, Qk; reflexivity). apply (quiet_inv _ Q).
Qed.
Lemma read_body_ok : forall items, (forall k v, In (k, v) items -> key_fine k /\ quiet v = true) -> read_body (join "," (map item_text items)) = Some items.
Proof.
  intros [|[k v] items] H; [reflexivity|]. destruct (H k v (or_introl eq_refl)) as [[Qk _] Qv].
  assert (E : join "," (map item_text ((k, v) :: items)) = (k ++ String ":" (match items with [] => v | _ => v ++ "," ++ join "," (map item_text items) end))%string).
  { destruct items as [|[k2 v2] items]; cbn [map]; unfold item_text at 1; cbn [fst snd]; [reflexivity|]. rewrite join_cons2, !app_assoc_s. reflexivity. }
  unfold read_body. rewrite E. destruct (String.eqb_spec (k ++ String ":" (match items with [] => v | _ => (v ++ "," ++ join "," (map item_text items))%string end)) "") as [X|_]; [destruct k; discriminate X|].
  rewrite split_app_char by apply (quiet_inv k Qk). apply read_pairs_ok; auto. intros k' v' Hi. apply H. right. exact Hi.
Qed.
Definition calm (b : string) : Prop := has_char "{" b = false /\ has_char "}" b = false /\ has_char newline b = false.
Lemma body_calm : forall items, (forall k v, In (k, v) items -> key_fine k /\ quiet v = true) -> calm (join "," (map item_text items)).
Proof.
  intros items H. assert (G : forall s, In s (map item_text items) -> calm s).
  { intros s Hs. apply in_map_iff in Hs as ([k v] & <- & Hi). destruct (H k v Hi) as [[Qk _] Qv]. apply quiet_inv in Qk as (_ & A1 & A2 & A3). apply quiet_inv in Qv as (_ & B1 & B2 & B3).
    unfold item_text, calm. cbn [fst snd]. rewrite !has_char_app, A1, A2, A3, B1, B2, B3. repeat split; reflexivity. }
  clear H. induction (map item_text items) as [|x l IH]; [repeat split; reflexivity|]. destruct l as [|y l]; [apply G; left; reflexivity|].
  rewrite join_cons2. destruct (G x (or_introl eq_refl)) as (A1 & A2 & A3). destruct IH as (B1 & B2 & B3); [intros s Hs; apply G; right; exact Hs|]. unfold calm. rewrite !has_char_app, A1, A2, A3, B1, B2, B3. repeat split; reflexivity.
Qed.
Definition wrap (b : string) : string := ("{" ++ b ++ "}")%string.
Definition body_of (p : string) : option string := match split "}" p with [b; r] => if String.eqb r "" || String.eqb r "," then Some b else None | _ => None end.
Lemma body_of_ok : forall b r, calm b -> r = "" \/ r = "," -> body_of (b ++ String "}" r) = Some b.
Proof. intros b r (_ & H & _) [-> | ->]; unfold body_of; rewrite split_app_char by exact H; reflexivity. Qed.
Lemma bodies_tail : forall bs b, (forall x, In x (b :: bs) -> calm x) ->
  mapM body_of (split "{" (b ++ "}" ++ match bs with [] => "" | _ => "," ++ join "," (map wrap bs) end)%string) = Some (b :: bs).
Proof.
  induction bs as [|b1 bs IH]; intros b H.
  - destruct (H b (or_introl eq_refl)) as (A1 & A2 & A3). rewrite TextFacts.split_nochar by (rewrite !has_char_app, A1; reflexivity). cbn [mapM]. change (b ++ "}" ++ "")%string with (b ++ String "}" "")%string. rewrite (body_of_ok b "") by (auto; repeat split; auto). reflexivity.
  - destruct (H b (or_introl eq_refl)) as (A1 & A2 & A3).
    assert (E : (b ++ "}" ++ "," ++ join "," (map wrap (b1 :: bs)))%string = ((b ++ "},") ++ String "{" (b1 ++ "}" ++ match bs with [] => "" | _ => "," ++ join "," (map wrap bs) end))%string).
    { destruct bs as [|b2 bs]; cbn [map]; [|rewrite join_cons2]; unfold wrap at 1; rewrite !app_assoc_s; cbn [append join]; rewrite ?app_assoc_s; reflexivity. }
    cbn beta iota match. rewrite E, split_app_char by (rewrite has_char_app, A1; reflexivity). cbn [mapM]. change (b ++ "},")%string with (b ++ String "}" ",")%string. rewrite (body_of_ok b ",") by (auto; repeat split; auto).
    rewrite IH by (intros x Hx; apply H; right; exact Hx). reflexivity.
Qed.
Lemma read_bodies_ok : forall bs, bs <> [] -> (forall b, In b bs -> calm b) -> read_bodies (join "," (map wrap bs)) = Some bs.
Proof.
  intros [|b bs] N H; [congruence|].
  assert (E : join "," (map wrap (b :: bs)) = ("" ++ String "{" (b ++ "}" ++ match bs with [] => "" | _ => "," ++ join "," (map wrap bs) end))%string).
  { destruct bs as [|b2 bs]; cbn [map]; [|rewrite join_cons2]; unfold wrap at 1; cbn [append join]; rewrite ?app_assoc_s; reflexivity. }
  unfold read_bodies. rewrite E, split_app_char by reflexivity. exact (bodies_tail bs b H).
Qed.

(** ** Values *)
Lemma canonical_run : forall l, canonical l -> exists p, ordered p /\ run p = Some l /\ forall x, denot p x <-> mem x l.
Proof.
  intros l C. assert (G : forall l, (forall i, In i l -> (lo i <= hi i)%Z) -> exists p, ordered p /\ forall x, denot p x <-> mem x l).
  { clear. induction l as [|i l IH]; intros H; [exists EEmpty; split; [exact I|intros x; cbn; rewrite mem_nil; tauto]|].
    destruct IH as (p & O & D); [intros j Hj; apply H; right; exact Hj|]. exists (EAdd p (lo i) (hi i)). split.
    - cbn. split; [exact O|apply H; left; reflexivity].
    - intros x. cbn [denot]. rewrite D, mem_cons. tauto. }
  destruct (G l) as (p & O & D); [intros i Hi; exact (proj1 (conj (canonical_in l i C Hi) I))|]. destruct (run_ok p O) as (m & E & Cm & M).
  exists p. split; [exact O|]. split; [|exact D]. rewrite E. f_equal. apply canonical_ext; auto. intros x. rewrite M, D. tauto.
Qed.
Lemma protocols_read : forall l, canonical l -> (forall x, mem x l -> (0 <= x <= 255)%Z) -> exists t, pr_str l = Some t /\ forall n, (0 <= n <= 255)%Z -> (PropPorts.says 0 255 pname t n <-> mem n l).
Proof.
  intros l C R. destruct (canonical_run l C) as (p & O & E & D). destruct (C06_protocol_text_denotes_the_set p O) as (l' & t & E' & P & S); [intros x Hx; apply R, D; exact Hx|].
  assert (l' = l) by congruence. subst l'. exists t. split; [exact P|]. intros n Hn. rewrite S by exact Hn. apply D.
Qed.
Lemma methods_read : forall l, canonical l -> (forall x, mem x l -> (0 <= x <= 8)%Z) -> exists t, m_str l = Some t /\ forall n, (0 <= n <= 8)%Z -> (PropPorts.says 0 8 mname t n <-> mem n l).
Proof.
  intros l C R. destruct (canonical_run l C) as (p & O & E & D). destruct (C06_method_text_denotes_the_set p O) as (l' & t & E' & P & S); [intros x Hx; apply R, D; exact Hx|].
  assert (l' = l) by congruence. subst l'. exists t. split; [exact P|]. intros n Hn. rewrite S by exact Hn. apply D.
Qed.
Lemma mapM_from : forall {A B} (f : A -> option B) l r y, mapM f l = Some r -> In y r -> exists x, In x l /\ f x = Some y.
Proof.
  intros A B f. induction l as [|a l IH]; intros r y E H; cbn [mapM] in E; [injection E as <-; destruct H|].
  destruct (f a) as [b|] eqn:Ea; [|discriminate E]. destruct (mapM f l) as [r'|] eqn:El; [|discriminate E]. cbn [bind] in E. injection E as <-.
  destruct H as [<-|H]; [exists a; split; [left; reflexivity|exact Ea]|]. destruct (IH r' y eq_refl H) as (x & H1 & H2). exists x. split; [right; exact H1|exact H2].
Qed.
Lemma digits_quiet : forall s, all_digits s = true -> quiet s = true.
Proof.
  intros s H. unfold quiet. assert (G : forall c, is_digit c = false -> has_char c s = false).
  { intros c Hc. clear - H Hc. induction s as [|a s IH]; [reflexivity|]. cbn in H. apply andb_true_iff in H as [H1 H2]. cbn [has_char]. rewrite (IH H2).
    destruct (Ascii.eqb_spec a c) as [->|]; [congruence|]. destruct (Ascii.eqb_spec c a) as [->|]; [congruence|]. reflexivity. }
  rewrite !G by reflexivity. reflexivity.
Qed.
Lemma ivl_quiet : forall i, (0 <= lo i)%Z -> (0 <= hi i)%Z -> quiet (ivl_text i) = true /\ has_char "," (ivl_text i) = false.
Proof.
  intros i H1 H2. destruct (str_of_Z_digits _ H1) as [D1 _]. destruct (str_of_Z_digits _ H2) as [D2 _]. unfold ivl_text. split.
  - rewrite quiet_app, (digits_quiet _ D1). destruct (lo i =? hi i)%Z; [reflexivity|]. rewrite quiet_app, (digits_quiet _ D2). reflexivity.
  - assert (G : forall s, all_digits s = true -> has_char "," s = false).
    { clear. intros s H. induction s as [|a s IH]; [reflexivity|]. cbn in H. apply andb_true_iff in H as [H1 H2]. cbn [has_char]. rewrite (IH H2).
      destruct (Ascii.eqb_spec a ","%char) as [->|]; [discriminate H1|]. destruct (Ascii.eqb_spec ","%char a) as [<-|]; [discriminate H1|]. reflexivity. }
    rewrite has_char_app, (G _ D1). destruct (lo i =? hi i)%Z; [reflexivity|]. rewrite has_char_app, (G _ D2). reflexivity.
Qed.
Lemma pname_quiet_table : forallb (fun n => match get_protocol_name n with Some s => quiet s | None => true end) (zrange 0 255) = true.
Proof. vm_compute. reflexivity. Qed.
Lemma pr_names_quiet : forall l ns s, pr_names l = Some ns -> In s ns -> quiet s = true.
Proof.
  intros l ns s E H. unfold pr_names in E.
  match type of E with bind ?m _ = _ => destruct m as [ls|] eqn:Em end; [|discriminate E]. cbn [bind] in E. injection E as <-.
  apply in_concat in H as (l1 & H1 & H2). destruct (mapM_from _ _ _ _ Em H1) as (i & Hi & Ei).
  destruct (negb ((lo i >=? 0) && (hi i <=? 255))%Z) eqn:R; [discriminate Ei|]. destruct (mapM_from _ _ _ _ Ei H2) as (n & Hn & En). apply zrange_In in Hn.
  assert (Rn : In n (zrange 0 255)) by (apply zrange_In; lia). pose proof pname_quiet_table as T. rewrite forallb_forall in T. specialize (T n Rn). cbn beta in T.
  destruct (get_protocol_name n) as [t|]; [|discriminate En]. cbn [bind] in En. injection En as <-. destruct (negb (String.eqb t "")); [exact T|]. apply digits_quiet, str_of_Z_digits. lia.
Qed.
Lemma pr_str_quiet : forall l t, pr_str l = Some t -> quiet t = true.
Proof.
  intros l t E. unfold pr_str in E. destruct (pr_is_whole l); [injection E as <-; reflexivity|]. destruct (negb (iset_bool l)); [injection E as <-; reflexivity|].
  destruct (pr_names l) as [ns|] eqn:En; [|discriminate E]. cbn [bind] in E. destruct (pr_compl_names l) as [cs|] eqn:Ec; [|discriminate E]. cbn [bind] in E. injection E as <-.
  destruct (Nat.leb _ _); [|change (quiet ("all but " ++ join ", " cs)%string = true); rewrite quiet_app; apply andb_true_iff; split; [reflexivity|]]; apply quiet_join; try reflexivity; intros s Hs; [exact (pr_names_quiet _ _ _ En Hs)|exact (pr_names_quiet _ _ _ Ec Hs)].
Qed.
Lemma all_methods_quiet : forall s, In s all_methods -> quiet s = true.
Proof. apply forallb_forall. reflexivity. Qed.
Lemma m_names_In : forall l ns s, m_names l = Some ns -> In s ns -> In s all_methods.
Proof.
  intros l ns s E H. unfold m_names in E.
  match type of E with bind ?m _ = _ => destruct m as [ls|] eqn:Em end; [|discriminate E]. cbn [bind] in E. injection E as <-.
  apply in_concat in H as (l1 & H1 & H2). destruct (mapM_from _ _ _ _ Em H1) as (i & Hi & Ei).
  destruct (negb ((lo i >=? 0) && (hi i <? 9))%Z) eqn:R; [discriminate Ei|]. destruct (mapM_from _ _ _ _ Ei H2) as (n & Hn & En).
  unfold py_nth in En. destruct (_ || _) in En; [discriminate En|]. exact (nth_error_In _ _ En).
Qed.
Lemma list_remove_In : forall x l r, list_remove x l = Some r -> incl r l.
Proof.
  intros x. induction l as [|y l IH]; intros r E; [discriminate E|]. cbn [list_remove] in E. destruct (String.eqb x y); [injection E as <-; intros z Hz; right; exact Hz|].
  destruct (list_remove x l) as [r'|]; [|discriminate E]. cbn in E. injection E as <-. intros z [<-|Hz]; [left; reflexivity|right; exact (IH r' eq_refl z Hz)].
Qed.
Lemma removes_In : forall ns (acc : option (list string)) r, fold_left (fun acc m => bind acc (list_remove m)) ns acc = Some r -> exists a, acc = Some a /\ incl r a.
Proof.
  induction ns as [|x ns IH]; intros acc r E; cbn [fold_left] in E; [exists r; split; [exact E|apply incl_refl]|].
  destruct (IH _ _ E) as (a & Ea & I). destruct acc as [b|]; [|discriminate Ea]. cbn [bind] in Ea. exists b. split; [reflexivity|]. intros z Hz. exact (list_remove_In _ _ _ Ea z (I z Hz)).
Qed.
Lemma m_str_quiet : forall l t, m_str l = Some t -> quiet t = true.
Proof.
  intros l t E. unfold m_str in E. destruct (iset_eqb l whole_methods); [injection E as <-; reflexivity|]. destruct (negb (iset_bool l)); [injection E as <-; reflexivity|].
  destruct (m_names l) as [ns|] eqn:En; [|discriminate E]. cbn [bind] in E. destruct (m_compl_names l) as [cs|] eqn:Ec; [|discriminate E]. cbn [bind] in E. injection E as <-.
  destruct (Nat.leb _ _); [|change (quiet ("all but " ++ join ", " cs)%string = true); rewrite quiet_app; apply andb_true_iff; split; [reflexivity|]]; apply quiet_join; try reflexivity; intros s Hs; apply all_methods_quiet; [exact (m_names_In _ _ _ En Hs)|].
  unfold m_compl_names in Ec. rewrite En in Ec. cbn [bind] in Ec. destruct (removes_In _ _ _ Ec) as (a & Ea & I). injection Ea as <-. exact (I s Hs).
Qed.
Lemma items_read : forall l, canonical l -> l <> [] -> (forall x, mem x l -> (0 <= x)%Z) -> let t := join "," (iset_items_text l) in
  quiet t = true /\ exists rs, read_items (split "," t) = Some rs /\ forall x, (exists ab, In ab rs /\ (fst ab <= x <= snd ab)%Z) <-> mem x l.
Proof.
  intros l C N R t. assert (B : forall i, In i l -> (0 <= lo i)%Z /\ (0 <= hi i)%Z).
  { intros i Hi. pose proof (canonical_in l i C Hi). split; apply R; exists i; (split; [exact Hi|lia]). }
  split.
  - apply quiet_join; [reflexivity|]. intros s Hs. apply in_map_iff in Hs as (i & <- & Hi). apply ivl_quiet; apply B; exact Hi.
  - exists (map (fun i => (lo i, hi i)) l). split.
    + unfold t. rewrite (split_join "," (iset_items_text l)); [apply read_items_ok; exact B| |].
      * unfold iset_items_text. destruct l; [congruence|discriminate].
      * apply Forall_forall. intros s Hs. apply in_map_iff in Hs as (i & <- & Hi). apply ivl_quiet; apply B; exact Hi.
    + intros x. split.
      * intros (ab & H & Hx). apply in_map_iff in H as (i & <- & Hi). exists i. split; [exact Hi|exact Hx].
      * intros (i & Hi & Hx). exists (lo i, hi i). split; [apply in_map_iff; exists i; auto|exact Hx].
Qed.

(** ** The active dimensions of a difference are among those of its arguments: the difference over all dimensions is the one over any list
    of dimensions which contains the active ones *)
Lemma subseq_same : forall (all a b : list dim), NoDup all -> subseq a all -> subseq b all -> (forall d, In d a <-> In d b) -> a = b.
Proof.
  intros all a b N Sa. revert b. induction Sa as [l|x a l Sa IH|x a l Sa IH]; intros b Sb E.
  - destruct b as [|y b]; [reflexivity|]. destruct (proj2 (E y) (or_introl eq_refl)).
  - inversion N as [|? ? Nx N']; subst. inversion Sb as [l0 E1 E2|x0 b0 l0 Sb' E1 E2|x0 b0 l0 Sb' E1 E2]; subst.
    + destruct (proj1 (E x) (or_introl eq_refl)).
    + f_equal. apply IH; auto. intros d. split; intros H.
      * destruct (proj1 (E d) (or_intror H)) as [->|X]; [|exact X]. destruct (Nx (subseq_in _ _ Sa d H)).
      * destruct (proj2 (E d) (or_intror H)) as [->|X]; [|exact X]. destruct (Nx (subseq_in _ _ Sb' d H)).
    + destruct (Nx (subseq_in _ _ Sb' x (proj1 (E x) (or_introl eq_refl)))).
  - inversion N as [|? ? Nx N']; subst. inversion Sb as [l0 E1 E2|x0 b0 l0 Sb' E1 E2|x0 b0 l0 Sb' E1 E2]; subst.
    + apply IH; auto. constructor.
    + destruct (Nx (subseq_in _ _ Sa x (proj2 (E x) (or_introl eq_refl)))).
    + apply IH; auto.
Qed.
Lemma by_order_small : forall all D s, NoDup all -> subseq D all -> (forall d, In d s -> In d D) -> by_order all s = by_order D s.
Proof.
  intros all D s N SD I. apply (subseq_same all); [exact N|apply by_order_subseq| |].
  - exact (subseq_trans _ _ _ (by_order_subseq D s) SD).
  - intros d. rewrite !by_order_in. split; intros [H1 H2]; split; auto. exact (subseq_in _ _ SD d H1).
Qed.
Section Small.
Context (dom : dim -> val) (all D : list dim) (N : NoDup all) (SD : subseq D all).
Local Notation O := (val_ops dom).
Lemma set_active_small : forall req h, (forall d, In d req -> In d D) -> (forall d, In d (act_of h) -> In d D) -> set_active O all req h = set_active O D req h.
Proof using N SD.
  intros req [| |c a ls] Hr Hh; try reflexivity. cbn [set_active]. destruct (subset_dims req a); [reflexivity|]. rewrite (by_order_small all D (a ++ req) N SD); [reflexivity|].
  intros d Hd. apply in_app_or in Hd as [Hd|Hd]; auto.
Qed.
Lemma build_act : forall new h, (forall d, In d (act_of (build O new h)) -> In d new \/ In d (act_of h)).
Proof using.
  intros new h d. destruct new as [|n0 new'], h as [| |c a ls]; cbn [build act_of]; auto.
  - destruct (negb (subset_dims a [])); [intros []|]. destruct (dims_eqb a []); [cbn; auto|intros []].
  - destruct (negb (subset_dims a (n0 :: new'))); [intros []|]. destruct (dims_eqb a (n0 :: new')); [cbn; auto|]. destruct a as [|a0 a]; [intros []|].
    destruct (a0 =? n0); [|cbn [act_of]; auto]. destruct (negb (is_last (a0 :: a))); [cbn [act_of]; auto|]. destruct new'; [intros []|cbn [act_of]; auto].
Qed.
Lemma set_active_act : forall req h, (forall d, In d req -> In d D) -> (forall d, In d (act_of h) -> In d D) -> forall d, In d (act_of (set_active O D req h)) -> In d D.
Proof using.
  intros req [| |c a ls] Hr Hh d; cbn [set_active]; try (intros []; fail). destruct (subset_dims req a); [apply Hh|]. 
  assert (B : forall x, In x (by_order D (a ++ req)) -> In x D) by (intros x Hx; apply by_order_in in Hx; apply Hx).
  destruct a as [|a0 a]; [cbn [act_of]; apply B|]. intros Hd. apply build_act in Hd as [Hd|Hd]; [exact (B d Hd)|exact (Hh d Hd)].
Qed.
Lemma prepare_small : forall h1 h2, (forall d, In d (act_of h1) -> In d D) -> (forall d, In d (act_of h2) -> In d D) ->
  prepare O all h1 h2 = prepare O D h1 h2 /\ (forall d, In d (act_of (fst (prepare O D h1 h2))) -> In d D).
Proof using N SD.
  intros h1 h2 H1 H2. unfold prepare. destruct (dims_eqb (act_of h1) (act_of h2)); [split; [reflexivity|exact H1]|].
  assert (R : forall d, In d (act_of h1 ++ act_of h2) -> In d D) by (intros d Hd; apply in_app_or in Hd as [Hd|Hd]; auto).
  rewrite (set_active_small _ h1 R H1), (set_active_small _ h2 R H2). destruct (subset_dims (act_of h1) (act_of h2)); (split; [reflexivity|]); exact (set_active_act _ h1 R H1).
Qed.
Lemma reduce_small : forall h, (forall d, In d (act_of h) -> In d D) -> reduce_active O all h = reduce_active O D h.
Proof using N SD.
  intros [| |c a ls] H; try reflexivity. cbn [reduce_active]. destruct (negb (hbool (Node c a ls)) || is_all (Node c a ls)); [reflexivity|].
  rewrite (by_order_small all D _ N SD); [reflexivity|]. intros d Hd. apply filter_In in Hd as [Hd _]. exact (H d Hd).
Qed.
Lemma sub_aux_act : forall h1 h2 d, In d (act_of (sub_aux O h1 h2)) -> In d (act_of h1).
Proof using. intros [| |c a ls] [| |c2 a2 l2] d; cbn [sub_aux act_of]; try (intros []; fail). destruct (negb (dims_eqb a a2)); [intros []|]. cbn [act_of]. auto. Qed.
Lemma sub_small : forall h1 h2, (forall d, In d (act_of h1) -> In d D) -> (forall d, In d (act_of h2) -> In d D) -> is_all h2 = false -> h_sub O all h1 h2 = h_sub O D h1 h2.
Proof using N SD.
  intros h1 h2 H1 H2 A. unfold h_sub. rewrite A. destruct (negb (hbool h2)); [reflexivity|]. destruct (prepare_small h1 h2 H1 H2) as [E P]. rewrite E.
  destruct (prepare O D h1 h2) as [g1 g2]. cbn [fst] in P. apply reduce_small. intros d Hd. apply P, (sub_aux_act g1 g2). destruct (sub_aux O g1 g2); exact Hd.
Qed.
End Small.

(** ** Cubes and sets of cubes *)
Section Main.
Context (dom : dim -> val) (DO : doms_ok dom) (E2 : forall d, 2 <= d -> dom d = std_dom d).
Context (word_text : dim -> val -> string) (ws : dim -> string -> Z -> Prop).
Local Notation O := (val_ops dom).
Local Notation valid := (val_valid dom).
Definition wordy (d : dim) : Prop := d = 0 \/ d = 1 \/ d = 6 \/ d = 7.
(** The texts of peers, hosts and paths have no ":", "{", "}" and can be read; for the dimensions of the list [Ds]. *)
Context (Ds : list dim) (SD : subseq Ds std_all).
Definition readable : Prop := forall d v, In d Ds -> wordy d -> valid d v -> (exists x, val_mem x v) -> val_eqb (dom d) v = false ->
  quiet (word_text d v) = true /\ forall x, val_mem x (dom d) -> (ws d (word_text d v) x <-> val_mem x v).
Context (RD : readable).
Let L := val_laws dom DO.

Lemma dim_text_ok : forall d v, d < 10 /\ In d Ds -> valid d v -> (exists x, val_mem x v) -> val_eqb (dom d) v = false ->
  exists t, dim_text word_text d v = Some t /\ quiet t = true /\ forall x, val_mem x (dom d) -> (value_says ws d t x <-> val_mem x v).
Proof using E2 RD.
  intros d v [Hd HD] V N Q.
  assert (W : wordy d -> exists t, Some (word_text d v) = Some t /\ quiet t = true /\ forall x, val_mem x (dom d) -> (ws d t x <-> val_mem x v)).
  { intros Hw. destruct (RD d v HD Hw V N Q) as [R1 R2]. exists (word_text d v). auto. }
  assert (I : 2 <= d -> forall m M, std_dom d = VI [Ivl m M] -> exists l, v = VI l /\ canonical l /\ l <> [] /\ forall x, mem x l -> (m <= x <= M)%Z).
  { intros H2 m M Es. destruct V as (V1 & V2 & V3). rewrite (E2 d H2), Es in V2, V3. destruct v as [l|]; [|destruct V2]. exists l. split; [reflexivity|]. split; [exact V1|]. split.
    - intros ->. destruct N as (x & Hx). cbn in Hx. exact (proj1 (mem_nil x) Hx).
    - intros x Hx. specialize (V3 x Hx). cbn in V3. apply in_whole in V3. exact V3. }
  assert (R : 2 <= d -> forall m M, (0 <= m)%Z -> std_dom d = VI [Ivl m M] -> exists t, Some (join "," (iset_items_text (ints_of v))) = Some t /\ quiet t = true /\
    forall x, val_mem x (dom d) -> ((exists l ab, read_items (split "," t) = Some l /\ In ab l /\ (fst ab <= x <= snd ab)%Z) <-> val_mem x v)).
  { intros H2 m M Hm Es. destruct (I H2 m M Es) as (l & -> & C & Nl & B). cbn [ints_of val_mem]. destruct (items_read l C Nl) as [Qt (rs & Er & Mr)]; [intros x Hx; specialize (B x Hx); lia|].
    eexists. split; [reflexivity|]. split; [exact Qt|]. intros x _. rewrite <- (Mr x). split.
    - intros (l' & ab & E & H). assert (l' = rs) by congruence. subst l'. exists ab. exact H.
    - intros (ab & H). exists rs, ab. split; [exact Er|exact H]. }
  destruct d as [|[|[|[|[|[|[|[|[|[|d]]]]]]]]]]; cbn [dim_text value_says]; try (apply W; unfold wordy; auto 6; fail).
  - destruct (I ltac:(lia) 0%Z 255%Z eq_refl) as (l & -> & C & Nl & B). cbn [ints_of]. destruct (protocols_read l C B) as (t & Et & Mt). exists t. split; [exact Et|]. split; [exact (pr_str_quiet _ _ Et)|].
    intros x Hx. rewrite E2 in Hx by lia. cbn in Hx. apply in_whole in Hx. exact (Mt x Hx).
  - exact (R ltac:(lia) 1%Z 65535%Z ltac:(lia) eq_refl).
  - exact (R ltac:(lia) 1%Z 65535%Z ltac:(lia) eq_refl).
  - destruct (I ltac:(lia) 0%Z 8%Z eq_refl) as (l & -> & C & Nl & B). cbn [ints_of]. destruct (methods_read l C B) as (t & Et & Mt). exists t. split; [exact Et|]. split; [exact (m_str_quiet _ _ Et)|].
    intros x Hx. rewrite E2 in Hx by lia. cbn in Hx. apply in_whole in Hx. exact (Mt x Hx).
  - exact (R ltac:(lia) 0%Z 254%Z ltac:(lia) eq_refl).
  - exact (R ltac:(lia) 0%Z 255%Z ltac:(lia) eq_refl).
  - lia.
Qed.
Lemma dim_name_key : forall d, d < 10 -> nth_error dim_names d = Some (dim_name d) /\ key_fine (dim_name d) /\ forall e, nth_error dim_names e = Some (dim_name d) -> e = d.
Proof using.
  intros d Hd. assert (En : nth_error dim_names d = Some (dim_name d)) by (apply nth_error_nth'; exact Hd). split; [exact En|]. split.
  - do 10 (destruct d as [|d]; [split; reflexivity|]). lia.
  - intros e Ee. apply (proj1 (NoDup_nth_error dim_names)).
    + unfold dim_names. repeat (apply NoDup_cons; [cbn; intros X; repeat (destruct X as [X|X]; [discriminate X|]); exact X|]). apply NoDup_nil.
    + apply nth_error_Some. congruence.
    + congruence.
Qed.
Lemma cube_dict_ok : forall ds k, List.length k = List.length ds -> Forall (fun d => d < 10 /\ In d Ds) ds -> Forall (fun v => exists x, val_mem x v) k ->
  (forall d v, In (d, v) (combine ds k) -> valid d v) ->
  exists items, cube_dict dom word_text ds k = Some items /\ (forall a b, In (a, b) items -> key_fine a /\ quiet b = true) /\
    forall pt, indom O val_mem pt -> (in_items ws items pt <-> cmem val_mem ds pt k).
Proof using DO E2 RD.
  induction ds as [|d ds IH]; intros k Lk Fd Fk V; destruct k as [|v k]; try discriminate Lk.
  - exists []. split; [reflexivity|]. split; [intros a b []|]. intros pt _. split; [intros _; exact I|intros _ a b []].
  - inversion Fd as [|? ? Hd Fd']; subst. inversion Fk as [|? ? Hv Fk']; subst. injection Lk as Lk.
    destruct (IH k Lk Fd' Fk') as (items & E & G & M); [intros e w H; apply V; right; exact H|].
    assert (Vd : valid d v) by (apply V; left; reflexivity). unfold cube_dict in *. cbn [combine filter fst snd].
    destruct (val_eqb (dom d) v) eqn:Q; cbn [negb].
    + exists items. split; [exact E|]. split; [exact G|]. intros pt Sp. rewrite (M pt Sp). cbn [cmem]. split; [|tauto]. intros H. split; [|exact H].
      assert (Em : forall x, val_mem x (dom d) <-> val_mem x v).
      { apply (val_eqb_ok (dom d) v); [|exact (proj1 Vd)| |exact Q].
        - pose proof (DO d) as Dd. destruct (dom d) as [l|co l]; [apply Dd|]. destruct Dd as [_ ->]. exact I.
        - destruct Vd as (_ & V2 & _). destruct v, (dom d); auto. }
      apply Em. exact (Sp d).
    + destruct (dim_text_ok d v Hd Vd Hv Q) as (t & Et & Qt & Mt). destruct (dim_name_key d (proj1 Hd)) as (Kn & Kf & Ku).
      cbn [mapM fst snd]. rewrite Et. cbn [bind]. rewrite E. cbn [bind]. exists ((dim_name d, t) :: items). split; [reflexivity|]. split.
      * intros a b [H|H]; [|exact (G a b H)]. assert (a = dim_name d /\ b = t) as [-> ->] by (split; congruence). split; [exact Kf|exact Qt].
      * intros pt Sp. cbn [cmem]. rewrite <- (M pt Sp). split.
        -- intros H. split; [|intros a b Hi; apply H; right; exact Hi]. destruct (H _ _ (or_introl eq_refl)) as (e & He & Se). rewrite (Ku e He) in Se. apply (Mt (pt d)); [exact (Sp d)|exact Se].
        -- intros [H1 H2] a b [H|H]; [|exact (H2 a b H)]. assert (a = dim_name d /\ b = t) as [-> ->] by (split; congruence). exists d. split; [exact Kn|]. apply Mt; [exact (Sp d)|exact H1].
Qed.
Lemma cubes_text : forall ds cubes, Forall (fun d => d < 10 /\ In d Ds) ds -> cubes <> [] ->
  (forall k, In k cubes -> List.length k = List.length ds /\ Forall (fun v => exists x, val_mem x v) k /\ forall d v, In (d, v) (combine ds k) -> valid d v) ->
  exists l, mapM (cube_dict dom word_text ds) cubes = Some l /\ l <> [] /\
    has_char newline (join "," (map cube_str l)) = false /\
    (forall pt, indom O val_mem pt -> (in_cubes ws (join "," (map cube_str l)) pt <-> exists k, In k cubes /\ cmem val_mem ds pt k)).
Proof using DO E2 RD.
  intros ds cubes Fd N H.
  assert (G : exists l, mapM (cube_dict dom word_text ds) cubes = Some l /\ List.length l = List.length cubes /\ (forall items, In items l -> forall a b, In (a, b) items -> key_fine a /\ quiet b = true) /\
     forall pt, indom O val_mem pt -> ((exists items, In items l /\ in_items ws items pt) <-> exists k, In k cubes /\ cmem val_mem ds pt k)).
  { clear N. induction cubes as [|k cubes IH].
    - exists []. split; [reflexivity|]. split; [reflexivity|]. split; [intros i []|]. intros pt _. split; [intros (i & [] & _)|intros (i & [] & _)].
    - destruct IH as (l & E & Ll & Gl & M); [intros k' Hk; apply H; right; exact Hk|]. destruct (H k (or_introl eq_refl)) as (H1 & H2 & H3).
      destruct (cube_dict_ok ds k H1 Fd H2 H3) as (items & Ei & Gi & Mi). exists (items :: l). cbn [mapM]. rewrite Ei. cbn [bind]. rewrite E. cbn [bind]. split; [reflexivity|].
      split; [cbn; congruence|]. split; [intros i [<-|Hi]; [exact Gi|exact (Gl i Hi)]|]. intros pt Sp. split.
      + intros (i & [<-|Hi] & D); [exists k; split; [left; reflexivity|apply Mi; auto]|]. destruct (proj1 (M pt Sp) (ex_intro _ i (conj Hi D))) as (k' & Hk & D'). exists k'. split; [right; exact Hk|exact D'].
      + intros (k' & [<-|Hk] & D); [exists items; split; [left; reflexivity|apply Mi; auto]|]. destruct (proj2 (M pt Sp) (ex_intro _ k' (conj Hk D))) as (i & Hi & D'). exists i. split; [right; exact Hi|exact D']. }
  destruct G as (l & E & Ll & Gl & M). exists l. split; [exact E|]. assert (Nl : l <> []) by (intros ->; destruct cubes; [congruence|discriminate Ll]). split; [exact Nl|].
  set (bs := map (fun items => join "," (map item_text items)) l).
  assert (Eb : map cube_str l = map wrap bs) by (unfold bs; rewrite map_map; reflexivity).
  assert (Cb : read_bodies (join "," (map cube_str l)) = Some bs).
  { rewrite Eb. apply read_bodies_ok; [unfold bs; destruct l; [congruence|discriminate]|]. intros b Hb. apply in_map_iff in Hb as (i & <- & Hi). apply body_calm, Gl, Hi. }
  split.
  { rewrite Eb. assert (Cm : forall b, In b bs -> calm b) by (intros b Hb; apply in_map_iff in Hb as (i & <- & Hi); apply body_calm, Gl, Hi).
    clear - Cm. induction bs as [|b bs IH]; [reflexivity|]. destruct (Cm b (or_introl eq_refl)) as (_ & _ & A3). assert (W : has_char newline (wrap b) = false) by (unfold wrap; rewrite !has_char_app, A3; reflexivity).
    destruct bs as [|b' bs]; [exact W|]. cbn [map] in *. rewrite join_cons2, !has_char_app, W, IH; [reflexivity|]. intros x Hx. apply Cm. right. exact Hx. }
  intros pt Sp. refine (iff_trans _ (M pt Sp)). unfold in_cubes. split.
  - intros (bs' & b & items & Eb' & Hb & Er & D). assert (bs' = bs) by congruence. subst bs'. apply in_map_iff in Hb as (i & <- & Hi). rewrite (read_body_ok i (Gl i Hi)) in Er.
    assert (items = i) by congruence. subst items. exists i. auto.
  - intros (i & Hi & D). exists bs, (join "," (map item_text i)), i. split; [exact Cb|]. split; [apply in_map_iff; exists i; auto|]. split; [apply read_body_ok, Gl, Hi|exact D].
Qed.
Lemma starts : forall l, l <> [] -> exists r, join "," (map cube_str l) = String "{" r.
Proof using. intros [|x l] N; [congruence|]. destruct l; eexists; reflexivity. Qed.
Lemma substr_all_but : forall c, prefix "All but " ("All but " ++ c) = true /\ substring 8 (String.length ("All but " ++ c) - 8) ("All but " ++ c) = c.
Proof using. intros c. split; [apply prefix_app|]. exact (substring_drop "All but " c). Qed.
Lemma repr_ok : forall h, obj O val_mem valid false std_all h -> (forall d, In d (act_of h) -> In d Ds) -> is_all h = false -> hbool h = true ->
  exists rep r, conns_repr dom word_text std_all h = Some rep /\ rep = String "{" r /\ has_char newline rep = false /\ forall pt, indom O val_mem pt -> (in_cubes ws rep pt <-> HyperFacts.denot val_mem h pt).
Proof using DO E2 RD.
  intros h Oh Ha Ia B. destruct (iter_spec O val_mem valid L false std_all h) as (I1 & I2 & _ & I4); [repeat (constructor; [cbn; lia|]); constructor|exact Oh|].
  assert (Id : iter_dims std_all h = act_of h) by (unfold iter_dims; rewrite Ia; reflexivity). rewrite Id in *.
  assert (Pr : HyperDims.proper O val_mem valid false std_all h).
  { destruct (obj_cases O val_mem valid false std_all h Oh) as [X|[[X _]|X]]; [rewrite X in Ia; discriminate Ia|congruence|exact X]. }
  destruct Pr as (NE & Sb & G & _).
  destruct (cubes_text (act_of h) (iter_cubes O std_all h)) as (l & E & Nl & Nn & M).
  - apply Forall_forall. intros d Hd. split; [|exact (Ha d Hd)]. assert (In d std_all) by exact (subseq_in _ _ Sb d Hd). unfold std_all in H. cbn in H. lia.
  - unfold iter_cubes. rewrite Ia. destruct (cubes_tree O val_mem valid false (act_of h) h NE G) as (_ & _ & _ & X). exact X.
  - intros k Hk. destruct (I2 k Hk) as [H1 H2]. split; [exact H1|]. split; [exact H2|]. intros d v Hdv. unfold iter_cubes in Hk. rewrite Ia in Hk.
    exact (tree_keys_valid O val_mem valid false (act_of h) h k d v NE G Hk Hdv).
  - destruct (starts l Nl) as (r & Er). exists (join "," (map cube_str l)), r. split; [unfold conns_repr; rewrite E; reflexivity|]. split; [exact Er|]. split; [exact Nn|].
    intros pt Sp. rewrite (M pt Sp). symmetry. exact (I1 pt Sp).
Qed.
Lemma mem_or_not : forall h p, obj O val_mem valid false std_all h -> HyperFacts.denot val_mem h p \/ ~ HyperFacts.denot val_mem h p.
Proof using DO.
  intros h p Oh. assert (ND : NoDup std_all) by (repeat (constructor; [cbn; lia|]); constructor).
  pose proof (contains_spec O val_mem valid L false std_all h p ND Oh) as X. destruct (contains O p h); [left; apply X; reflexivity|right; intros D; apply X in D; discriminate D].
Qed.
Lemma obj_act : forall h, obj O val_mem valid false Ds h -> forall d, In d (act_of h) -> In d Ds.
Proof using.
  intros h [_ [(c & ->)|[(c & a & -> & _ & S)|P]]] d; [intros []|exact (subseq_in _ _ S d)|]. destruct P as (_ & Sb & _). exact (subseq_in _ _ Sb d).
Qed.
Lemma obj_small : forall h, obj O val_mem valid false std_all h -> (forall d, In d (act_of h) -> In d Ds) -> obj O val_mem valid false Ds h.
Proof using SD.
  intros h [T Ch] Ha. assert (ND : NoDup std_all) by (repeat (constructor; [cbn; lia|]); constructor). split; [exact T|]. destruct Ch as [X|[(c & a & -> & Na & S)|P]]; [left; exact X|right; left|right; right].
  - exists c, a. split; [reflexivity|]. split; [exact Na|]. exact (subseq_incl std_all a Ds ND S SD Ha).
  - destruct P as (P1 & P2 & P3). split; [exact P1|]. split; [|exact P3]. exact (subseq_incl std_all (act_of h) Ds ND P2 SD Ha).
Qed.
Theorem conn_text_ok : forall compl h, obj O val_mem valid false std_all h -> (forall d, In d (act_of h) -> In d Ds) ->
  exists t, conn_text dom word_text std_all compl h = Some t /\ has_char newline t = false /\ forall pt, indom O val_mem pt -> (meaning ws t pt <-> HyperFacts.denot val_mem h pt).
Proof using DO E2 RD SD.
  intros compl h Oh Ha. assert (ND : NoDup std_all) by (repeat (constructor; [cbn; lia|]); constructor). assert (NA : std_all <> []) by discriminate.
  unfold conn_text. destruct (is_all h) eqn:Ia.
  { eexists. split; [reflexivity|]. split; [reflexivity|]. intros pt Sp. unfold meaning. cbn. split; [intros _|tauto]. exact (proj1 (is_all_spec O val_mem valid L false std_all h ND Oh) Ia pt Sp). }
  destruct (hbool h) eqn:B; cbn [negb].
  2:{ eexists. split; [reflexivity|]. split; [reflexivity|]. intros pt Sp. unfold meaning. cbn. split; [tauto|]. intros D. assert (X : hbool h = true) by (apply (hbool_spec O val_mem valid L false std_all h ND Oh); exists pt; auto). congruence. }
  destruct (repr_ok h Oh Ha Ia B) as (rep & r & E & Er & Nr & M). rewrite E.
  assert (Plain : forall pt, indom O val_mem pt -> (meaning ws rep pt <-> HyperFacts.denot val_mem h pt)).
  { intros pt Sp. rewrite <- (M pt Sp). unfold meaning. rewrite Er. cbn. tauto. }
  destruct (compl && mem_dim 2 (act_of h)); [|eexists; split; [reflexivity|split; [exact Nr|exact Plain]]].
  assert (Oa : obj O val_mem valid false std_all (hall Conn)) by (apply hall_obj; discriminate).
  destruct (h_sub_spec O val_mem valid L false std_all (hall Conn) h ND NA Oa Oh eq_refl) as (Os & _ & Ms).
  set (c := h_sub O std_all (hall Conn) h) in *.
  assert (Dh : (exists p, indom O val_mem p /\ HyperFacts.denot val_mem h p) /\ exists p, indom O val_mem p /\ ~ HyperFacts.denot val_mem h p).
  { split; [exact (proj1 (hbool_spec O val_mem valid L false std_all h ND Oh) B)|].
    destruct (hbool c) eqn:Bc; [|].
    - destruct (proj1 (hbool_spec O val_mem valid L false std_all c ND Os) Bc) as (p & Sp & Dp). exists p. split; [exact Sp|]. exact (proj2 (proj1 (Ms p Sp) Dp)).
    - exfalso. assert (X : is_all h = true); [|congruence]. apply (is_all_spec O val_mem valid L false std_all h ND Oh). intros p Sp.
      destruct (mem_or_not h p Oh) as [D|D]; [exact D|]. exfalso. assert (Y : hbool c = true); [|congruence]. apply (hbool_spec O val_mem valid L false std_all c ND Os). exists p. split; [exact Sp|].
      apply (Ms p Sp). split; [exact I|exact D]. }
  destruct Dh as ((p1 & Sp1 & D1) & p2 & Sp2 & D2).
  assert (Bc : hbool c = true) by (apply (hbool_spec O val_mem valid L false std_all c ND Os); exists p2; split; [exact Sp2|]; apply (Ms p2 Sp2); split; [exact I|exact D2]).
  assert (Hc : forall d, In d (act_of c) -> In d Ds).
  { unfold c. rewrite (sub_small dom std_all Ds ND SD (hall Conn) h) by (exact Ha || exact Ia || (intros d [])).
    assert (NE : Ds <> []).
    { intros ->. destruct (obj_cases O val_mem valid false std_all h Oh) as [X|[[X _]|X]]; [rewrite X in Ia; discriminate Ia|congruence|]. destruct X as (X & _). destruct (act_of h) as [|d ds]; [congruence|destruct (Ha d (or_introl eq_refl))]. }
    assert (Od : obj O val_mem valid false Ds h) by exact (obj_small h Oh Ha).
    assert (Oad : obj O val_mem valid false Ds (hall Conn)) by (apply hall_obj; discriminate).
    destruct (h_sub_spec O val_mem valid L false Ds (hall Conn) h (subseq_nodup _ _ SD ND) NE Oad Od eq_refl) as (Osd & _ & _).
    exact (obj_act _ Osd). }
  assert (Ic : is_all c = false).
  { destruct (is_all c) eqn:X; [|reflexivity]. exfalso. pose proof (proj1 (is_all_spec O val_mem valid L false std_all c ND Os) X p1 Sp1) as Y. apply (Ms p1 Sp1) in Y. exact (proj2 Y D1). }
  destruct (repr_ok c Os Hc Ic Bc) as (crep & cr & Ec & _ & Nc & Mc). rewrite Ec. destruct (Nat.ltb _ _); [|eexists; split; [reflexivity|split; [exact Nr|exact Plain]]].
  eexists. split; [reflexivity|]. split; [rewrite has_char_app, Nc; reflexivity|]. intros pt Sp. destruct (substr_all_but crep) as [P1 P2]. unfold meaning. rewrite P1, P2.
  change (String.eqb ("All but " ++ crep) "All connections") with false. change (String.eqb ("All but " ++ crep) "No connections") with false. cbn iota.
  rewrite (Mc pt Sp), (Ms pt Sp). destruct (mem_or_not h pt Oh) as [D|D]; [split; [intros _; exact D|intros _ [_ X]; exact (X D)]|split; [intros X; exfalso; apply X; split; [exact I|exact D]|intros X; destruct (D X)]].
Qed.
End Main.
