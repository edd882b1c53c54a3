(** * Facts about the order of policies in a layer and about the policy container. *)
From Coq Require Import ZArith List Bool Arith Lia String Permutation Sorting.Sorted.
From Verif Require Import IntervalModel PortProtoModel PeerModel PolicyModel.
Import ListNotations.
Local Open Scope nat_scope.

Section Order.
Context {C : Type}.
Notation policy := (@policy C).
Implicit Types (l : list policy) (x y z : policy).

(** ** insort *)
(** [x] is smaller than everything from some position on. *)
Definition mono x l : Prop := forall i j y z, i <= j -> nth_error l i = Some y -> nth_error l j = Some z ->
  policy_lt x y = true -> policy_lt x z = true.

Lemma mid_bounds : forall a b, a < b -> a <= (a + b) / 2 < b.
Proof. intros a b H. pose proof (Nat.div_mod (a + b) 2 ltac:(lia)). pose proof (Nat.mod_upper_bound (a + b) 2 ltac:(lia)). lia. Qed.

Lemma bisect_total : forall fuel l x low high, low <= high <= List.length l -> high - low < fuel ->
  exists k, bisect fuel l x low high = Some k /\ low <= k <= high.
Proof.
  induction fuel as [|fuel IH]; intros l x low high H F; [lia|]. cbn [bisect].
  destruct (Nat.ltb_spec low high) as [Hl|Hl]; [|exists low; split; auto; lia].
  pose proof (mid_bounds low high Hl) as Hm. set (mid := (low + high) / 2) in *.
  destruct (nth_error l mid) as [y|] eqn:E; [|apply nth_error_None in E; lia].
  destruct (policy_lt x y).
  - destruct (IH l x low mid) as (k & -> & Hk); try lia. exists k. split; auto. lia.
  - destruct (IH l x (mid + 1) high) as (k & -> & Hk); try lia. exists k. split; auto. lia.
Qed.
Lemma bisect_ok : forall fuel l x low high k, low <= high <= List.length l ->
  bisect fuel l x low high = Some k -> mono x l ->
  (forall i y, i < low -> nth_error l i = Some y -> policy_lt x y = false) ->
  (forall i y, high <= i -> nth_error l i = Some y -> policy_lt x y = true) ->
  (forall i y, i < k -> nth_error l i = Some y -> policy_lt x y = false) /\
  (forall i y, k <= i -> nth_error l i = Some y -> policy_lt x y = true).
Proof.
  induction fuel as [|fuel IH]; intros l x low high k H E M A B; [discriminate|]. cbn [bisect] in E.
  destruct (Nat.ltb_spec low high) as [Hl|Hl].
  - pose proof (mid_bounds low high Hl) as Hm. set (mid := (low + high) / 2) in *.
    destruct (nth_error l mid) as [y|] eqn:Ey; [|discriminate].
    destruct (policy_lt x y) eqn:Ex.
    + apply (IH l x low mid k); auto; [lia|]. intros i z Hi Hz. apply (M mid i y z); auto.
    + apply (IH l x (mid + 1) high k); auto; [lia|]. intros i z Hi Hz.
      destruct (policy_lt x z) eqn:Exz; auto. exfalso. assert (X : policy_lt x y = true) by (apply (M i mid z y); auto; lia). congruence.
  - injection E as <-. split; intros i y Hi Hy; [apply (A i); auto|apply (B i); auto; lia].
Qed.

Lemma insort_total : forall l x, exists l1 l2, l = l1 ++ l2 /\ insort l x = Some (l1 ++ x :: l2).
Proof.
  intros l x. unfold insort. destruct (bisect_total (S (List.length l)) l x 0 (List.length l)) as (k & -> & Hk); [lia|lia|].
  exists (firstn k l), (skipn k l). split; auto. symmetry. apply firstn_skipn.
Qed.
Lemma nth_firstn : forall (l : list policy) k i, i < k -> nth_error (firstn k l) i = nth_error l i.
Proof. induction l as [|a l IH]; intros [|k] [|i] H; cbn; auto; try lia. apply IH. lia. Qed.
Lemma nth_skipn : forall (l : list policy) k i, nth_error (skipn k l) i = nth_error l (k + i).
Proof. induction l as [|a l IH]; intros [|k] i; cbn; auto. destruct i; auto. Qed.
Lemma insort_mono : forall l x, mono x l -> exists l1 l2, l = l1 ++ l2 /\ insort l x = Some (l1 ++ x :: l2) /\
  (forall y, In y l1 -> policy_lt x y = false) /\ (forall y, In y l2 -> policy_lt x y = true).
Proof.
  intros l x M. unfold insort.
  destruct (bisect_total (S (List.length l)) l x 0 (List.length l)) as (k & E & Hk); [lia|lia|]. rewrite E.
  destruct (bisect_ok _ _ _ _ _ _ ltac:(split; [apply Nat.le_0_l|apply Nat.le_refl]) E M) as [B1 B2]; [intros; lia| |].
  { intros i y Hi Hy. exfalso. assert (nth_error l i <> None) by congruence. apply nth_error_Some in H. lia. }
  exists (firstn k l), (skipn k l). split; [symmetry; apply firstn_skipn|]. split; auto. split.
  - intros y Hy. apply In_nth_error in Hy as [i Hi].
    assert (Hl : i < List.length (firstn k l)) by (apply nth_error_Some; congruence).
    rewrite firstn_length in Hl. rewrite nth_firstn in Hi by lia. apply (B1 i); auto. lia.
  - intros y Hy. apply In_nth_error in Hy as [i Hi]. rewrite nth_skipn in Hi. apply (B2 (k + i)); auto. lia.
Qed.
Lemma insort_perm : forall l x l', insort l x = Some l' -> Permutation l' (x :: l).
Proof.
  intros l x l' E. destruct (insort_total l x) as (l1 & l2 & -> & E'). rewrite E in E'. injection E' as ->.
  symmetry. apply Permutation_middle.
Qed.

(** ** K8s and Calico policies: sorted by order, unordered last *)
Definition ordered_class x : Prop := class_of (p_kind x) = CK8s \/ class_of (p_kind x) = CCalico.
(** The order of a policy: 1000 for K8s policies, the order field for Calico, [None] is infinity. *)
Definition before (a b : option Z) : Prop := match a, b with Some i, Some j => (i <= j)%Z | None, Some _ => False | _, None => True end.
Definition by_order (l : list policy) : Prop := StronglySorted (fun x y => before (get_order x) (get_order y)) l.

Lemma lt_before : forall x y, ordered_class x -> (policy_lt x y = false <-> before (get_order y) (get_order x)).
Proof.
  intros x y [H|H]; unfold policy_lt, before; rewrite H; destruct (get_order x), (get_order y); try tauto; try (intuition congruence);
    rewrite Z.ltb_ge; tauto.
Qed.
Lemma lt_strict : forall x y, ordered_class x -> policy_lt x y = true -> before (get_order x) (get_order y).
Proof.
  intros x y [H|H]; unfold policy_lt, before; rewrite H; destruct (get_order x), (get_order y); auto; try discriminate;
    rewrite Z.ltb_lt; lia.
Qed.
Lemma before_trans : forall a b c, before a b -> before b c -> before a c.
Proof. intros [a|] [b|] [c|]; cbn; try tauto; lia. Qed.

Lemma sorted_nth : forall l i j y z, by_order l -> i <= j -> nth_error l i = Some y -> nth_error l j = Some z ->
  before (get_order y) (get_order z).
Proof.
  assert (R : forall a, before a a) by (intros [a|]; cbn; auto; lia).
  induction l as [|w l IH]; intros i j y z S H Hi Hj; [destruct i; discriminate|].
  apply StronglySorted_inv in S as [S F]. destruct i as [|i], j as [|j]; cbn in Hi, Hj; try lia.
  - replace z with y by congruence. apply R.
  - injection Hi as ->. rewrite Forall_forall in F. apply F. eapply nth_error_In; eauto.
  - apply (IH i j); auto. lia.
Qed.
Lemma sorted_mono : forall l x, ordered_class x -> by_order l -> mono x l.
Proof.
  intros l x Hx S i j y z H Hi Hj E. pose proof (sorted_nth l i j y z S H Hi Hj) as B.
  destruct (policy_lt x z) eqn:Ez; auto. exfalso. apply lt_before in Ez; auto.
  pose proof (before_trans _ _ _ B Ez) as B2. apply lt_before in B2; auto. congruence.
Qed.
Lemma sorted_app : forall (l1 l2 : list policy) x, by_order (l1 ++ l2) ->
  (forall y, In y l1 -> before (get_order y) (get_order x)) -> (forall y, In y l2 -> before (get_order x) (get_order y)) ->
  by_order (l1 ++ x :: l2).
Proof.
  induction l1 as [|y l1 IH]; intros l2 x S A B; cbn [app] in *.
  - constructor; auto. apply Forall_forall. auto.
  - apply StronglySorted_inv in S as [S F]. constructor; [apply IH; auto; intros z Hz; apply A; simpl; auto|].
    rewrite Forall_forall in *. intros z Hz. apply in_app_or in Hz as [Hz|[<-|Hz]].
    + apply F. apply in_or_app; auto.
    + apply A. simpl; auto.
    + apply F. apply in_or_app; auto.
Qed.
Lemma insort_sorted : forall l x l', ordered_class x -> by_order l -> insort l x = Some l' -> by_order l'.
Proof.
  intros l x l' Hx S E. destruct (insort_mono l x (sorted_mono l x Hx S)) as (l1 & l2 & -> & E' & A & B).
  rewrite E in E'. injection E' as ->. apply sorted_app; auto.
  - intros y Hy. apply lt_before; auto.
  - intros y Hy. apply lt_strict; auto.
Qed.

(** ** Istio authorization policies: Deny before Allow *)
Definition deny_first (l : list policy) : Prop :=
  forall l1 x l2 y, l = l1 ++ x :: l2 -> In y l2 -> p_action y = Deny -> p_action x = Deny.
Definition only_ap (l : list policy) : Prop := forall x, In x l -> class_of (p_kind x) = CIstioAP.

Lemma ap_mono : forall l x, only_ap (x :: l) -> mono x l.
Proof.
  intros l x H i j y z _ Hi Hj. unfold policy_lt. rewrite (H x) by (left; auto).
  rewrite (H y), (H z); auto; right; eapply nth_error_In; eauto.
Qed.
Lemma insort_deny_first : forall l x l', only_ap (x :: l) -> deny_first l -> insort l x = Some l' -> deny_first l'.
Proof.
  intros l x l' K D E. destruct (insort_mono l x (ap_mono l x K)) as (l1 & l2 & -> & E' & A & B).
  rewrite E in E'. injection E' as ->.
  assert (LT : forall y, In y (l1 ++ l2) -> policy_lt x y = action_eqb (p_action x) Deny).
  { intros y Hy. unfold policy_lt. rewrite (K x) by (left; auto). rewrite (K y) by (right; auto). auto. }
  assert (AE : action_eqb (p_action x) Deny = true <-> p_action x = Deny) by (destruct (p_action x); cbn; intuition congruence).
  intros m1 y m2 z Em Hz Dz.
  assert (Cases : (y = x \/ In y (l1 ++ l2)) /\ True) by (split; auto; assert (In y (l1 ++ x :: l2)) by (rewrite Em; apply in_elt); apply in_app_or in H as [H|[H|H]]; [right; apply in_or_app| |right; apply in_or_app]; auto).
  destruct (p_action x) eqn:Ex.
  1,3,4: (assert (l2 = []) by (destruct l2 as [|w l2]; auto; exfalso; specialize (B w (or_introl eq_refl)); rewrite LT in B by (apply in_or_app; simpl; auto); discriminate); subst l2;
    destruct m2 as [|w m2] using rev_ind; [destruct Hz|]; clear IHm2; rewrite app_comm_cons, app_assoc in Em; apply app_inj_tail in Em as [Em Ew]; subst w;
    apply in_app_or in Hz as [Hz|[Hz|[]]]; [|congruence]; rewrite app_nil_r in D; eapply D; eauto).
  assert (l1 = []) by (destruct l1 as [|w l1]; auto; exfalso; specialize (A w (or_introl eq_refl)); rewrite LT in A by (simpl; auto); discriminate). subst l1.
  cbn [app] in *. destruct m1 as [|w m1]; cbn [app] in Em; injection Em as <- Em; auto. eapply D; eauto.
Qed.

(** ** Layers container *)
Lemma lname_eqb_eq : forall a b, lname_eqb a b = true <-> a = b.
Proof. intros [] []; cbn; intuition congruence. Qed.
Lemma ptype_eqb_eq : forall a b, ptype_eqb a b = true <-> a = b.
Proof. intros [] []; cbn; intuition congruence. Qed.
Lemma key_eqb_eq : forall a b, key_eqb a b = true <-> a = b.
Proof.
  intros [a1 a2] [b1 b2]. unfold key_eqb. cbn [fst snd]. rewrite andb_true_iff, String.eqb_eq, ptype_eqb_eq. intuition congruence.
Qed.

Lemma lget_lset : forall (ls : @layers C) n m l, lget (lset ls n l) m = if lname_eqb n m then Some l else lget ls m.
Proof.
  intros ls n m l. unfold lget. induction ls as [|[k e] ls IH]; cbn [lset find fst snd].
  - destruct (lname_eqb n m); auto.
  - destruct (lname_eqb k n) eqn:E1; cbn [find fst snd].
    + apply lname_eqb_eq in E1. subst. destruct (lname_eqb n m); auto.
    + destruct (lname_eqb k m) eqn:E2; cbn [snd].
      * apply lname_eqb_eq in E2. subst. assert (lname_eqb n m = false) as ->; auto.
        destruct (lname_eqb n m) eqn:E3; auto. apply lname_eqb_eq in E3. subst. rewrite (proj2 (lname_eqb_eq m m) eq_refl) in E1. discriminate.
      * apply IH.
Qed.
Lemma lget_ldel : forall (ls : @layers C) n m, lget (ldel ls n) m = if lname_eqb n m then None else lget ls m.
Proof.
  intros ls n m. unfold lget, ldel. induction ls as [|[k e] ls IH]; cbn [filter find fst snd].
  - destruct (lname_eqb n m); auto.
  - destruct (lname_eqb k n) eqn:E1; cbn [negb find fst snd].
    + rewrite IH. apply lname_eqb_eq in E1. subst. destruct (lname_eqb n m); auto.
    + destruct (lname_eqb k m) eqn:E2; cbn [snd].
      * apply lname_eqb_eq in E2. subst. assert (lname_eqb n m = false) as ->; auto.
        destruct (lname_eqb n m) eqn:E3; auto. apply lname_eqb_eq in E3. subst. rewrite (proj2 (lname_eqb_eq m m) eq_refl) in E1. discriminate.
      * apply IH.
Qed.
Lemma lset_names : forall (ls : @layers C) n l, NoDup (map fst ls) -> NoDup (map fst (lset ls n l)) /\
  forall m, In m (map fst (lset ls n l)) <-> m = n \/ In m (map fst ls).
Proof.
  induction ls as [|[k e] ls IH]; intros n l N; cbn [lset map fst].
  - split; [constructor; auto; constructor|]. intros m; simpl. intuition congruence.
  - cbn [map fst] in N. inversion N as [|? ? N1 N2]; subst. destruct (lname_eqb k n) eqn:E.
    + apply lname_eqb_eq in E. subst. cbn [map fst]. split; auto. intros m. simpl. intuition congruence.
    + cbn [map fst]. destruct (IH n l N2) as [I1 I2]. split.
      * constructor; auto. rewrite I2. intros [->|H]; auto. rewrite (proj2 (lname_eqb_eq n n) eq_refl) in E. discriminate.
      * intros m. simpl. rewrite I2. intuition congruence.
Qed.
Lemma ldel_names : forall (ls : @layers C) n, NoDup (map fst ls) -> NoDup (map fst (ldel ls n)).
Proof.
  induction ls as [|[k e] ls IH]; intros n N; [constructor|]. cbn [map fst] in N. inversion N as [|? ? N1 N2]; subst.
  unfold ldel. cbn [filter fst]. destruct (lname_eqb k n); cbn [negb]; [apply IH; auto|]. cbn [map fst]. constructor; [|apply IH; auto].
  intro H. apply N1. apply in_map_iff in H as (e' & <- & H). apply filter_In in H as [H _]. apply in_map. auto.
Qed.
Lemma lget_In : forall (ls : @layers C) n l, NoDup (map fst ls) -> (lget ls n = Some l <-> In (n, l) ls).
Proof.
  unfold lget. induction ls as [|[k e] ls IH]; intros n l N; cbn [find fst snd In]; [split; [discriminate|tauto]|].
  cbn [map fst] in N. inversion N as [|? ? N1 N2]; subst. destruct (lname_eqb k n) eqn:E.
  - apply lname_eqb_eq in E. subst. cbn [snd]. split; [intros H; left; congruence|].
    intros [H|H]; [congruence|]. exfalso. apply N1. apply in_map_iff. exists (n, l). auto.
  - rewrite IH by auto. split; auto. intros [H|H]; auto. exfalso. injection H as -> ->. rewrite (proj2 (lname_eqb_eq n n) eq_refl) in E. discriminate.
Qed.

(** ** Policies container *)
Definition of_layer (n : lname) (p : policy) : bool := match layer_of_type (p_kind p) with Some m => lname_eqb m n | None => false end.
Definition layer_list (c : @pcont C) (n : lname) : list policy := match lget (lays c) n with Some l => l | None => [] end.
(** Adding policies one after the other; an addition that raises an exception leaves the container as it was. *)
Definition add_all (c : @pcont C) (ps : list policy) : @pcont C :=
  fold_left (fun c p => match append_policy c p with Some c' => c' | None => c end) ps c.

Record inv (c : @pcont C) : Prop := Inv {
  inv_keys : NoDup (map fst (policies c));
  inv_names : forall k p, In (k, p) (policies c) -> k = (full_name p, p_kind p) /\ p_kind p <> TUnknown;
  inv_layers : NoDup (map fst (lays c));
  inv_lists : forall n, Permutation (layer_list c n) (filter (of_layer n) (map snd (policies c)));
  inv_empty : forall n, lget (lays c) n = Some [] -> n = LK8sCalico /\ forall p m, In p (map snd (policies c)) -> of_layer m p = false;
  inv_present : lget (lays c) LK8sCalico = None -> exists p n, In p (map snd (policies c)) /\ of_layer n p = true;
  inv_order : by_order (layer_list c LK8sCalico);
  inv_deny : (forall p, In p (map snd (policies c)) -> p_kind p <> TSidecar) -> deny_first (layer_list c LIstio)
}.

Lemma inv_init : inv pcont_init.
Proof.
  constructor.
  - constructor.
  - intros k p [].
  - cbn. constructor; auto. constructor.
  - intros n. destruct n; cbn; constructor.
  - intros n. destruct n; cbn; try discriminate. intros _. split; [auto|intros p m []].
  - discriminate.
  - constructor.
  - intros _ l1 x l2 y E. destruct l1; discriminate.
Qed.

Lemma of_layer_K : forall p, of_layer LK8sCalico p = true -> ordered_class p.
Proof. intros p. unfold of_layer, ordered_class. destruct (p_kind p); cbn; auto; discriminate. Qed.

Lemma existsb_false : forall {X} (f : X -> bool) (l : list X), existsb f l = false <-> forall x : X, In x l -> f x = false.
Proof.
  intros X f l. split.
  - intros E x Hx. destruct (f x) eqn:F; auto. exfalso. assert (existsb f l = true) by (apply existsb_exists; eauto). congruence.
  - intros H. destruct (existsb f l) eqn:E; auto. apply existsb_exists in E as (x & Hx & F). rewrite H in F; auto.
Qed.

Lemma append_accepts : forall (c : @pcont C) p, (exists c', append_policy c p = Some c') <->
  p_kind p <> TUnknown /\ ~ In (full_name p, p_kind p) (map fst (policies c)).
Proof.
  intros c p. unfold append_policy. destruct (ptype_eqb (p_kind p) TUnknown) eqn:E1.
  - apply ptype_eqb_eq in E1. split; [intros [c' H]; discriminate|tauto].
  - assert (N1 : p_kind p <> TUnknown) by (intro H; apply ptype_eqb_eq in H; congruence).
    destruct (existsb _ (policies c)) eqn:E2.
    + apply existsb_exists in E2 as ([k q] & H1 & H2). apply key_eqb_eq in H2. cbn [fst] in H2. subst.
      split; [intros [c' H]; discriminate|]. intros [_ H]. exfalso. apply H. apply in_map_iff. exists (full_name p, p_kind p, q). auto.
    + assert (N2 : ~ In (full_name p, p_kind p) (map fst (policies c))).
      { intro H. apply in_map_iff in H as ([k q] & H1 & H2). cbn [fst] in H1. subst. rewrite existsb_false in E2.
        apply E2 in H2. cbn [fst] in H2. rewrite (proj2 (key_eqb_eq _ _) eq_refl) in H2. discriminate. }
      split; [auto|]. intros _. unfold layers_add. destruct (layer_of_type (p_kind p)) as [n|]; [|eauto].
      destruct (lget (lays c) n) as [l|]; [|eauto]. destruct (insort_total l p) as (l1 & l2 & _ & ->). eauto.
Qed.

Lemma inv_append : forall (c : @pcont C) p c', inv c -> append_policy c p = Some c' -> inv c' /\ policies c' = policies c ++ [((full_name p, p_kind p), p)].
Proof.
  intros c p c' I E. assert (Acc : exists c', append_policy c p = Some c') by eauto. apply append_accepts in Acc as [N1 N2].
  unfold append_policy in E. destruct (ptype_eqb (p_kind p) TUnknown); [discriminate|]. destruct (existsb _ _); [discriminate|].
  destruct (layers_add (lays c) p (layer_of_type (p_kind p))) as [ls|] eqn:El; [|discriminate]. injection E as <-.
  cbn [policies lays]. split; [|auto].
  assert (P1 : map snd (policies c ++ [((full_name p, p_kind p), p)]) = map snd (policies c) ++ [p]) by (rewrite map_app; auto).
  assert (Q1 : NoDup (map fst (policies c ++ [((full_name p, p_kind p), p)]))).
  { rewrite map_app. cbn [map fst]. apply (Permutation_NoDup (Permutation_cons_append _ _)). constructor; auto. apply (inv_keys c I). }
  assert (Q2 : forall k q, In (k, q) (policies c ++ [((full_name p, p_kind p), p)]) -> k = (full_name q, p_kind q) /\ p_kind q <> TUnknown).
  { intros k q H. apply in_app_or in H as [H|[H|[]]]; [apply (inv_names c I); auto|]. injection H as <- <-. auto. }
  unfold layers_add in El. destruct (layer_of_type (p_kind p)) as [n|] eqn:En.
  - (* the policy goes to layer n *)
    set (l0 := layer_list c n).
    assert (Hl : exists l1 l2, l0 = l1 ++ l2 /\ (match lget (lays c) n with None => Some [p] | Some l => insort l p end) = Some (l1 ++ p :: l2) /\ (l0 <> [] \/ l1 ++ p :: l2 = [p]) /\ insort l0 p = Some (l1 ++ p :: l2)).
    { unfold l0, layer_list. destruct (lget (lays c) n) as [l|].
      - destruct (insort_total l p) as (l1 & l2 & -> & E). exists l1, l2. split; auto. split; auto. split; auto.
        destruct l1, l2; cbn; auto; left; discriminate.
      - exists [], []. cbn. auto. }
    destruct Hl as (l1 & l2 & H0 & H1 & _ & H2). rewrite H1 in El.
    set (l' := l1 ++ p :: l2) in *.
    assert (Ne : l' <> []) by (unfold l'; destruct l1; discriminate).
    set (ls1 := lset (lays c) n l') in *.
    destruct (lset_names (lays c) n l' (inv_layers c I)) as [NN1 NN2].
    assert (G : forall m, lget ls m = if lname_eqb n m then Some l' else
                 match lget (lays c) m with Some [] => None | o => o end).
    { assert (Gs : forall m, lget ls1 m = if lname_eqb n m then Some l' else lget (lays c) m) by (intros m; apply lget_lset).
      destruct (lget ls1 LK8sCalico) as [[|q0 q]|] eqn:EK; injection El as <-.
      - intros m. rewrite lget_ldel. destruct (lname_eqb LK8sCalico m) eqn:Em.
        + apply lname_eqb_eq in Em. subst m. rewrite Gs in EK. destruct (lname_eqb n LK8sCalico); [congruence|]. rewrite EK. auto.
        + rewrite Gs. destruct (lname_eqb n m); auto. destruct (lget (lays c) m) as [[|]|] eqn:Eg; auto.
          apply (inv_empty c I) in Eg as [-> _]. discriminate.
      - intros m. rewrite Gs. destruct (lname_eqb n m) eqn:Em; auto. destruct (lget (lays c) m) as [[|]|] eqn:Eg; auto.
        pose proof (inv_empty c I m Eg) as [-> _]. rewrite Gs, Em, Eg in EK. discriminate.
      - intros m. rewrite Gs. destruct (lname_eqb n m) eqn:Em; auto. destruct (lget (lays c) m) as [[|]|] eqn:Eg; auto.
        pose proof (inv_empty c I m Eg) as [-> _]. rewrite Gs, Em, Eg in EK. discriminate. }
    assert (NN : NoDup (map fst ls)).
    { destruct (lget ls1 LK8sCalico) as [[|q0 q]|]; injection El as <-; auto. apply ldel_names; auto. }
    assert (LL : forall m, layer_list (PCont (policies c ++ [((full_name p, p_kind p), p)]) ls) m = if lname_eqb n m then l' else layer_list c m).
    { intros m. unfold layer_list. cbn [lays]. rewrite G. destruct (lname_eqb n m); auto. destruct (lget (lays c) m) as [[|]|]; auto. }
    assert (OL : forall m, of_layer m p = lname_eqb n m) by (intros m; unfold of_layer; rewrite En; auto).
    constructor; cbn [policies lays]; auto.
    + intros m. rewrite LL, P1, filter_app. cbn [filter]. rewrite OL. destruct (lname_eqb n m) eqn:Em.
      * apply lname_eqb_eq in Em. subst m. rewrite <- Permutation_cons_append. unfold l'. rewrite <- Permutation_middle.
        apply perm_skip. rewrite <- H0. unfold l0. apply (inv_lists c I).
      * rewrite app_nil_r. apply (inv_lists c I).
    + intros m. rewrite G. destruct (lname_eqb n m); [congruence|]. destruct (lget (lays c) m) as [[|]|]; discriminate.
    + intros _. exists p, n. split; [rewrite P1; apply in_or_app; simpl; auto|]. rewrite OL. apply lname_eqb_eq. auto.
    + rewrite LL. destruct (lname_eqb n LK8sCalico) eqn:Em; [|apply (inv_order c I)].
      apply lname_eqb_eq in Em. rewrite Em in *. apply (insort_sorted l0 p l'); auto.
      * apply of_layer_K. rewrite OL. auto.
      * unfold l0. rewrite Em. apply (inv_order c I).
    + rewrite P1. intros NS. rewrite LL. assert (NS' : forall q, In q (map snd (policies c)) -> p_kind q <> TSidecar) by (intros q Hq; apply NS; apply in_or_app; auto).
      destruct (lname_eqb n LIstio) eqn:Em; [|apply (inv_deny c I); auto].
      apply lname_eqb_eq in Em. rewrite Em in *. apply (insort_deny_first l0 p l'); auto; [|unfold l0; rewrite Em; apply (inv_deny c I); auto].
      unfold l0. rewrite Em. intros q [<-|Hq].
      * assert (p_kind p <> TSidecar) by (apply NS; apply in_or_app; simpl; auto). destruct (p_kind p); cbn in En |- *; congruence.
      * assert (Hq' : In q (filter (of_layer LIstio) (map snd (policies c)))) by (eapply Permutation_in; [apply (inv_lists c I)|exact Hq]).
        apply filter_In in Hq' as [Hq1 Hq2]. apply NS' in Hq1. unfold of_layer in Hq2. destruct (p_kind q); cbn in Hq2 |- *; congruence.
  - (* a policy of no layer *)
    injection El as <-.
    assert (OL : forall m, of_layer m p = false) by (intros m; unfold of_layer; rewrite En; auto).
    constructor; cbn [policies lays]; auto.
    + apply (inv_layers c I).
    + intros m. rewrite P1, filter_app. cbn [filter]. rewrite OL, app_nil_r. apply (inv_lists c I).
    + intros m H. apply (inv_empty c I) in H as [-> H]. split; auto. intros q k Hq. rewrite P1 in Hq. apply in_app_or in Hq as [Hq|[<-|[]]]; auto.
    + intros H. destruct (inv_present c I H) as (q & k & Hq & Hk). exists q, k. split; auto. rewrite P1. apply in_or_app; auto.
    + apply (inv_order c I).
    + intros NS. apply (inv_deny c I). intros q Hq. apply NS. rewrite P1. apply in_or_app; auto.
Qed.

Lemma inv_add_all : forall ps c, inv c -> inv (add_all c ps).
Proof.
  induction ps as [|p ps IH]; intros c I; auto. cbn [add_all fold_left]. destruct (append_policy c p) eqn:E.
  - apply IH. eapply inv_append; eauto.
  - apply IH; auto.
Qed.

(** ** Sidecars added after the authorization policies *)
Definition is_ap (p : policy) : Prop := class_of (p_kind p) = CIstioAP.
Definition deny_first_ap (l : list policy) : Prop :=
  forall l1 x l2 y, l = l1 ++ x :: l2 -> In y l2 -> is_ap x -> is_ap y -> p_action y = Deny -> p_action x = Deny.

Lemma sidecar_last : forall l x, p_kind x = TSidecar -> insort l x = Some (l ++ [x]).
Proof.
  intros l x K. assert (F : forall y, policy_lt x y = false) by (intros y; unfold policy_lt, get_order; rewrite K; reflexivity).
  destruct (insort_mono l x) as (l1 & l2 & E & -> & _ & B).
  { intros i j y z _ _ _ H. rewrite F in H. discriminate. }
  assert (l2 = []) by (destruct l2 as [|y l2]; auto; specialize (B y (or_introl eq_refl)); rewrite F in B; discriminate).
  subst l2. rewrite app_nil_r in E. subst l1. auto.
Qed.
Lemma append_sidecar : forall (c : @pcont C) p c', p_kind p = TSidecar -> append_policy c p = Some c' ->
  layer_list c' LIstio = layer_list c LIstio ++ [p].
Proof.
  intros c p c' K E. unfold append_policy in E. rewrite K in E. cbn [ptype_eqb] in E. destruct (existsb _ _); [discriminate|].
  cbn [layer_of_type] in E. unfold layers_add in E. unfold layer_list.
  assert (H : (match lget (lays c) LIstio with None => Some [p] | Some l => insort l p end) =
              Some (match lget (lays c) LIstio with Some l => l | None => [] end ++ [p])).
  { destruct (lget (lays c) LIstio); auto. apply sidecar_last; auto. }
  rewrite H in E. injection E as <-. cbn [lays].
  assert (G : forall ls' : @layers C, lget (match lget ls' LK8sCalico with Some [] => ldel ls' LK8sCalico | _ => ls' end) LIstio = lget ls' LIstio).
  { intros ls'. destruct (lget ls' LK8sCalico) as [[|]|]; auto. rewrite lget_ldel. auto. }
  rewrite G, lget_lset. auto.
Qed.
Lemma deny_first_sidecars : forall base s, deny_first base -> (forall p, In p s -> p_kind p = TSidecar) -> deny_first_ap (base ++ s).
Proof.
  intros base s D S. induction s as [|p s IH] using rev_ind.
  - rewrite app_nil_r. intros l1 x l2 y E Hy _ _. apply (D l1 x l2 y E Hy).
  - intros l1 x l2 y E Hy Ax Ay Dy. destruct l2 as [|z l2 _] using rev_ind; [destruct Hy|].
    rewrite app_assoc, app_comm_cons, app_assoc in E. apply app_inj_tail in E as [E <-].
    apply in_app_or in Hy as [Hy|[<-|[]]].
    + apply (IH (fun q Hq => S q (in_or_app _ _ _ (or_introl Hq))) l1 x l2 y E Hy Ax Ay Dy).
    + exfalso. unfold is_ap in Ay. rewrite S in Ay by (apply in_or_app; simpl; auto). discriminate.
Qed.
Lemma add_all_sidecars : forall ps (c : @pcont C), (forall p, In p ps -> p_kind p = TSidecar) ->
  exists s, layer_list (add_all c ps) LIstio = layer_list c LIstio ++ s /\ forall p, In p s -> p_kind p = TSidecar.
Proof.
  induction ps as [|p ps IH]; intros c K; [exists []; rewrite app_nil_r; split; [auto|intros p []]|].
  cbn [add_all fold_left]. destruct (append_policy c p) as [c'|] eqn:E.
  - destruct (IH c' (fun q Hq => K q (or_intror Hq))) as (s & Es & Ks). unfold add_all in Es. exists (p :: s). split.
    + rewrite Es, (append_sidecar c p c' (K p (or_introl eq_refl)) E), <- app_assoc. reflexivity.
    + intros q [<-|Hq]; auto. apply K; simpl; auto.
  - apply (IH c). intros q Hq. apply K; simpl; auto.
Qed.
Lemma add_all_kinds : forall ps (c : @pcont C), forall p, In p (map snd (policies (add_all c ps))) -> In p (map snd (policies c)) \/ In p ps.
Proof.
  induction ps as [|q ps IH]; intros c p H; auto. cbn [add_all fold_left] in H. destruct (append_policy c q) as [c'|] eqn:E.
  - destruct (IH c' p H) as [H1|H1]; [|simpl; auto]. unfold append_policy in E. destruct (ptype_eqb _ _); [discriminate|].
    destruct (existsb _ _); [discriminate|]. destruct (layers_add _ _ _); [|discriminate]. injection E as <-. cbn [policies] in H1.
    rewrite map_app in H1. apply in_app_or in H1 as [H1|[<-|[]]]; simpl; auto.
  - destruct (IH c p H); simpl; auto.
Qed.
Lemma sidecars_after : forall l1 l2, (forall p, In p l1 -> p_kind p <> TSidecar) -> (forall p, In p l2 -> p_kind p = TSidecar) ->
  deny_first_ap (layer_list (add_all pcont_init (l1 ++ l2)) LIstio).
Proof.
  intros l1 l2 K1 K2. unfold add_all. rewrite fold_left_app. fold (add_all pcont_init l1). fold (add_all (add_all pcont_init l1) l2).
  destruct (add_all_sidecars l2 (add_all pcont_init l1) K2) as (s & -> & Ks). apply deny_first_sidecars; auto.
  apply (inv_deny _ (inv_add_all l1 _ inv_init)). intros p Hp. apply add_all_kinds in Hp as [[]|Hp]. auto.
Qed.
End Order.
