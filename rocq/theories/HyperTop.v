(** * Public operations on hyper-cube objects: invariants, exactness, equality,
      containment, membership, enumeration. *)
From Coq Require Import List Bool Arith Lia.
Import ListNotations.
From Verif Require Import HyperModel HyperFacts HyperOps HyperDims.

Section TopFacts.
Context {V P : Type} (O : vops V P) (vmem : P -> V -> Prop) (valid : dim -> V -> Prop)
        (L : vlaws O vmem valid).
Notation hc := (hc V).
Notation entry := (V * hc)%type.
Notation tmem := (tmem vmem).
Notation indom := (indom O vmem).
Notation same := (same O vmem).
Notation full := (full O vmem).
Notation rel := (rel O vmem).
Notation tagok := (tagok O vmem).
Notation keyok := (keyok vmem valid).
Notation disj := (disj vmem).
Notation pdisj := (pdisj vmem).
Notation lok := (lok vmem valid).
Notation gc := (gc O vmem valid).
Notation ok := (ok O vmem valid).
Notation proper := (proper O vmem valid).
Notation denot := (HyperFacts.denot vmem).

(** The invariant of an object: everything, nothing, or a proper reduced tree. *)
Definition obj (st : bool) (all : list dim) (h : hc) : Prop :=
  (st = true -> cls_of h = Plain) /\
  ((exists c, h = hall c) \/
   (exists c a, h = Node c a [] /\ a <> [] /\ subseq a all) \/
   proper st all h).

Lemma proper_ok st all h : NoDup all -> (st = true -> cls_of h = Plain) -> proper st all h -> ok st (act_of h) h.
Proof.
  intros N T Pr. split; [apply Pr|]. destruct st; simpl; auto.
  intros _. apply (proper_not_full O vmem valid L false all); auto.
Qed.

Lemma proper_shape st all h : proper st all h ->
  exists c d ds ls, h = Node c (d :: ds) ls /\ ls <> [].
Proof.
  intros [NE [S [G R]]]. destruct (act_of h) as [|d ds] eqn:E; [congruence|].
  destruct (gc_inv _ _ _ _ _ _ _ G) as [c [ls [-> [NEl _]]]]. exists c, d, ds, ls. auto.
Qed.

Lemma proper_hbool st all h : proper st all h -> hbool h = true /\ is_all h = false.
Proof.
  intros Pr. destruct (proper_shape _ _ _ Pr) as [c [d [ds [ls [-> NE]]]]].
  split; [apply hbool_node; auto|reflexivity].
Qed.

Lemma obj_cases st all h : obj st all h ->
  (h = hall (cls_of h)) \/
  (hbool h = false /\ is_all h = false /\ h = Node (cls_of h) (act_of h) [] /\ act_of h <> [] /\ subseq (act_of h) all) \/
  proper st all h.
Proof.
  intros [_ [[c ->]|[[c [a [-> [NE S]]]]|Pr]]]; auto. right; left. destruct a; [congruence|]. simpl. auto.
Qed.

(** ** Aligning active dimensions *)
Lemma set_active_spec st all req h : NoDup all -> act_of h <> [] -> subseq (act_of h) all ->
  ok st (act_of h) h -> (forall d, In d req -> In d all) ->
  let new := by_order all (act_of h ++ req) in
  gc st new (set_active O all req h) /\
  (forall p, indom p -> (tmem new p (set_active O all req h) <-> tmem (act_of h) p h)) /\
  cls_of (set_active O all req h) = cls_of h.
Proof.
  intros N NE S [G T] Hr new.
  destruct (act_of h) as [|d ds] eqn:E; [congruence|].
  destruct (gc_inv _ _ _ _ _ _ _ G) as [c [ls [-> [NEl _]]]]. cbn [act_of] in *.
  unfold set_active. destruct (subset_dims req (d :: ds)) eqn:Es.
  - assert (En : new = d :: ds).
    { apply (subseq_antisym all); auto; [apply by_order_subseq|]. intro x. unfold new.
      rewrite by_order_in, in_app_iff. rewrite subset_dims_spec in Es. split.
      - intros [_ [Hx|Hx]]; auto.
      - intro Hx. split; auto. eapply subseq_in; eauto. }
    rewrite En. split; [exact G|]. split; [tauto|reflexivity].
  - fold new. apply (build_spec O vmem valid L st); auto.
    + eapply subseq_nodup; [apply by_order_subseq|auto].
    + apply (subseq_incl all); auto; [apply by_order_subseq|]. intros x Hx. unfold new.
      rewrite by_order_in, in_app_iff. split; auto. eapply subseq_in; eauto.
    + split; auto.
Qed.

Lemma mem_dim_app d a b : mem_dim d (a ++ b) = mem_dim d a || mem_dim d b.
Proof. apply eq_iff_eq_true. rewrite orb_true_iff, !mem_dim_In, in_app_iff. tauto. Qed.

Lemma by_order_absorb all a b : by_order all (a ++ (a ++ b)) = by_order all (a ++ b).
Proof.
  unfold by_order. apply filter_ext. intro d. rewrite !mem_dim_app.
  destruct (mem_dim d a), (mem_dim d b); auto.
Qed.
Lemma by_order_absorb2 all a b : by_order all (b ++ (a ++ b)) = by_order all (a ++ b).
Proof.
  unfold by_order. apply filter_ext. intro d. rewrite !mem_dim_app.
  destruct (mem_dim d a), (mem_dim d b); auto.
Qed.

Lemma by_order_ne all a b : a <> [] -> subseq a all -> by_order all (a ++ b) <> [].
Proof.
  intros NE S E. destruct a as [|d a]; [congruence|].
  assert (H : In d (by_order all ((d :: a) ++ b))).
  { apply by_order_in. split; [eapply subseq_in; eauto; simpl; auto|simpl; auto]. }
  rewrite E in H. contradiction.
Qed.

(** A first operand that is everything or proper, and a proper second operand. *)
Lemma prepare_spec st all h1 h2 : NoDup all ->
  (st = true -> cls_of h1 = Plain) -> (st = true -> cls_of h2 = Plain) ->
  (h1 = hall (cls_of h1) \/ proper st all h1) -> proper st all h2 ->
  exists ds h1' h2', prepare O all h1 h2 = (h1', h2') /\ ds <> [] /\ subseq ds all /\
    gc st ds h1' /\ gc st ds h2' /\
    (forall p, indom p -> (tmem ds p h1' <-> denot h1 p)) /\
    (forall p, indom p -> (tmem ds p h2' <-> denot h2 p)).
Proof.
  intros N T1 T2 C1 P2. pose proof (proper_ok _ _ _ N T2 P2) as Ok2.
  destruct P2 as [NE2 [S2 [G2 R2]]].
  assert (In2 : forall d, In d (act_of h2) -> In d all) by (intros d; apply subseq_in; auto).
  unfold prepare, HyperFacts.denot. destruct C1 as [Eh1|P1].
  - (* self is everything *)
    rewrite Eh1. cbn [act_of hall]. destruct (act_of h2) as [|d2 a2] eqn:Ea2; [congruence|].
    cbn [dims_eqb]. simpl subset_dims. cbv iota. rewrite app_nil_l.
    cbn [hall set_active]. rewrite app_nil_l.
    assert (Ess : subset_dims (d2 :: a2) [] = false) by reflexivity.
    rewrite Ess.
    assert (En : by_order all (d2 :: a2) = d2 :: a2) by (apply by_order_self; auto).
    rewrite En.
    destruct (full_cube_gc O vmem valid L st (d2 :: a2)) as [Gf Ff]; [eapply subseq_nodup; eauto|auto|].
    exists (d2 :: a2). do 2 eexists. split; [reflexivity|]. split; auto. split; auto.
    rewrite create_aux_full in Gf, Ff.
    assert (Gf' : gc st (d2 :: a2) (Node (cls_of h1) (d2 :: a2) (layers_of (create_aux (full_cube O (d2 :: a2)))))).
    { rewrite create_aux_full. cbn [layers_of]. eapply gc_retag; eauto. }
    split; auto. split; auto. split; [|tauto].
    intros p Hp. rewrite create_aux_full. cbn [layers_of]. split; [simpl; auto|].
    intros _. apply (tmem_retag vmem (d2 :: a2) p Plain (cls_of h1) (d2 :: a2) (d2 :: a2)). apply Ff; auto.
  - pose proof (proper_ok _ _ _ N T1 P1) as Ok1. destruct P1 as [NE1 [S1 [G1 R1]]].
    assert (In1 : forall d, In d (act_of h1) -> In d all) by (intros d; apply subseq_in; auto).
    destruct (dims_eqb (act_of h1) (act_of h2)) eqn:Eq.
    + apply dims_eqb_eq in Eq. exists (act_of h1), h1, h2. repeat split; auto; try tauto; rewrite Eq; auto; tauto.
    + assert (Hreq : forall d, In d (act_of h1 ++ act_of h2) -> In d all)
        by (intros d Hd; apply in_app_iff in Hd as [Hd|Hd]; auto).
      destruct (set_active_spec st all (act_of h1 ++ act_of h2) h1 N NE1 S1 Ok1 Hreq) as [A1 [A2 _]].
      destruct (set_active_spec st all (act_of h1 ++ act_of h2) h2 N NE2 S2 Ok2 Hreq) as [B1 [B2 _]].
      rewrite by_order_absorb in A1, A2. rewrite by_order_absorb2 in B1, B2.
      assert (NEn : by_order all (act_of h1 ++ act_of h2) <> []) by (apply by_order_ne; auto).
      destruct (subset_dims (act_of h1) (act_of h2)) eqn:Es.
      * assert (En : by_order all (act_of h1 ++ act_of h2) = act_of h2).
        { apply (subseq_antisym all); auto; [apply by_order_subseq|]. intro x.
          rewrite by_order_in, in_app_iff. rewrite subset_dims_spec in Es. split.
          - intros [_ [Hx|Hx]]; auto.
          - intro Hx. split; auto. }
        exists (by_order all (act_of h1 ++ act_of h2)), (set_active O all (act_of h1 ++ act_of h2) h1), h2.
        split; auto. split; auto. split; [apply by_order_subseq|]. split; auto. rewrite En.
        split; auto. rewrite En in A2. split; auto. tauto.
      * exists (by_order all (act_of h1 ++ act_of h2)), (set_active O all (act_of h1 ++ act_of h2) h1),
          (set_active O all (act_of h1 ++ act_of h2) h2).
        split; auto. split; auto. split; [apply by_order_subseq|]. auto.
Qed.

(** Finishing an operation: self takes the result's layers, then reduces. *)
Lemma finish_spec st all c ds r M : NoDup all -> ds <> [] -> subseq ds all -> (st = true -> c = Plain) ->
  result O vmem valid st ds r M ->
  let h := reduce_active O all (override c r) in
  obj st all h /\ cls_of h = c /\ (forall p, indom p -> (denot h p <-> M p)).
Proof.
  intros N NE S T [ls [-> [[->|G] HM]]] h; cbn [override] in h.
  - destruct ds as [|d ds]; [congruence|]. unfold h, reduce_active. cbn [hbool negb orb].
    split; [|split; [reflexivity|]].
    + split; auto. right; left. exists c, (d :: ds). auto.
    + intros p Hp. rewrite <- HM by auto. unfold HyperFacts.denot. simpl act_of. apply tmem_retag.
  - assert (G' : gc st ds (Node c ds ls)) by (eapply gc_retag; eauto).
    assert (Ea : act_of (Node c ds ls) = ds) by reflexivity.
    destruct (reduce_active_spec O vmem valid L st all (Node c ds ls)) as [A [B C]]; rewrite ?Ea; auto.
    cbn [cls_of] in *. fold h in A, B, C. split; [|split]; auto.
    + split.
      * intro Es. rewrite A. auto.
      * destruct C as [C|C]; [left; eauto|auto].
    + intros p Hp. rewrite <- HM by auto. etransitivity; [apply B; auto|]. simpl act_of.
      unfold HyperDims.denot, HyperFacts.denot. simpl act_of. apply tmem_retag.
Qed.

Lemma hall_denot c p : denot (@hall V c) p.
Proof. exact I. Qed.
Lemma empty_denot c a p : a <> [] -> ~ denot (Node c a ([] : list entry)) p.
Proof. unfold HyperFacts.denot. destruct a; [congruence|]. simpl. intros _ [v [s [[] _]]]. Qed.

Lemma hempty_obj st all c : all <> [] -> (st = true -> c = Plain) -> obj st all (hempty c all).
Proof. intros NE T. split; auto. right; left. exists c, all. repeat split; auto. apply subseq_refl. Qed.
Lemma hall_obj st all c : (st = true -> c = Plain) -> obj st all (hall c).
Proof. intros T. split; auto. left; eauto. Qed.

Lemma override_proper st all c h : (st = true -> c = Plain) -> proper st all h ->
  obj st all (override c h) /\ cls_of (override c h) = c /\ (forall p, denot (override c h) p <-> denot h p).
Proof.
  intros T Pr. destruct (proper_shape _ _ _ Pr) as [c0 [d [ds [ls [-> NE]]]]].
  cbn [override]. split; [|split; [reflexivity|]].
  - split; [exact T|]. right; right. destruct Pr as [A [B [G R]]]. cbn [act_of] in *.
    split; [discriminate|]. split; [exact B|]. split; [exact G|]. exact R.
  - intro p. unfold HyperFacts.denot. simpl act_of. apply tmem_retag.
Qed.

(** *** The three operations *)
Lemma h_and_spec st all h1 h2 : NoDup all -> all <> [] -> obj st all h1 -> obj st all h2 ->
  let h := h_and O all h1 h2 in
  obj st all h /\ cls_of h = cls_of h1 /\ (forall p, indom p -> (denot h p <-> denot h1 p /\ denot h2 p)).
Proof.
  intros N NE O1 O2 h. unfold h, h_and. clear h.
  pose proof (obj_cases _ _ _ O1) as C1. pose proof (obj_cases _ _ _ O2) as C2.
  destruct O1 as [T1 O1]. destruct O2 as [T2 O2].
  destruct C2 as [C2|[[B2 [I2 [E2 [NE2 S2]]]]|P2]].
  - rewrite C2. cbn [is_all act_of hall]. split; [split; auto|]. split; auto. intros p Hp. split; [|tauto].
    intro; split; auto. apply hall_denot.
  - rewrite I2, B2. cbn [negb orb]. split; [apply hempty_obj; auto|]. split; auto.
    intros p Hp. rewrite E2. split.
    + intro H. exfalso. revert H. apply empty_denot; auto.
    + intros [_ H]. exfalso. revert H. apply empty_denot; auto.
  - destruct (proper_hbool _ _ _ P2) as [B2 I2]. rewrite I2, B2. cbn [negb orb].
    destruct C1 as [C1|[[B1 [I1 [E1 [NE1 S1]]]]|P1]].
    + rewrite C1. cbn [hall hbool negb is_all act_of].
      destruct (override_proper st all (cls_of h1) h2 T1 P2) as [A [B C]].
      split; auto. split; auto. intros p Hp. rewrite C. split; [|tauto]. intro; split; auto. exact I.
    + rewrite B1. cbn [negb]. split; [apply hempty_obj; auto|]. split; auto.
      intros p Hp. rewrite E1. split.
      * intro H. exfalso. revert H. apply empty_denot; auto.
      * intros [H _]. exfalso. revert H. apply empty_denot; auto.
    + destruct (proper_hbool _ _ _ P1) as [B1 I1]. rewrite B1, I1. cbn [negb].
      destruct (prepare_spec st all h1 h2 N T1 T2 (or_intror P1) P2)
        as [ds [h1' [h2' [E [NEd [S [G1 [G2 [D1 D2]]]]]]]]].
      rewrite E. assert (Nd : NoDup ds) by (eapply subseq_nodup; eauto).
      pose proof (and_aux_spec O vmem valid L st ds h1' h2' Nd NEd G1 G2) as R.
      destruct (finish_spec st all (cls_of h1) ds _ _ N NEd S T1 R) as [A [B C]].
      split; auto. split; auto. intros p Hp. rewrite C, D1, D2 by auto. tauto.
Qed.

Lemma h_or_spec st all h1 h2 : NoDup all -> all <> [] -> obj st all h1 -> obj st all h2 ->
  let h := h_or O all h1 h2 in
  obj st all h /\ cls_of h = cls_of h1 /\ (forall p, indom p -> (denot h p <-> denot h1 p \/ denot h2 p)).
Proof.
  intros N NE O1 O2 h. unfold h, h_or. clear h.
  pose proof (obj_cases _ _ _ O1) as C1. pose proof (obj_cases _ _ _ O2) as C2.
  destruct O1 as [T1 O1]. destruct O2 as [T2 O2].
  destruct C2 as [C2|[[B2 [I2 [E2 [NE2 S2]]]]|P2]].
  - rewrite C2. cbn [is_all act_of hall orb]. split; [apply hall_obj; auto|]. split; auto.
    intros p Hp. split; intros _; [first [left; exact I|right; exact I]|exact I].
  - rewrite I2, B2. destruct C1 as [C1|[[B1 [I1 [E1 [NE1 S1]]]]|P1]].
    + rewrite C1. cbn [is_all act_of hall orb]. split; [apply hall_obj; auto|]. split; auto.
      intros p Hp. split; intros _; [first [left; exact I|right; exact I]|exact I].
    + rewrite I1. cbn [negb orb]. split; [split; auto|]. split; auto.
      intros p Hp. split; auto. intros [H|H]; auto. exfalso. rewrite E2 in H. revert H. apply empty_denot; auto.
    + destruct (proper_hbool _ _ _ P1) as [B1 I1]. rewrite I1. cbn [negb orb]. split; [split; auto|]. split; auto.
      intros p Hp. split; auto. intros [H|H]; auto. exfalso. rewrite E2 in H. revert H. apply empty_denot; auto.
  - destruct (proper_hbool _ _ _ P2) as [B2 I2]. rewrite I2, B2.
    destruct C1 as [C1|[[B1 [I1 [E1 [NE1 S1]]]]|P1]].
    + rewrite C1. cbn [is_all act_of hall orb]. split; [apply hall_obj; auto|]. split; auto.
      intros p Hp. split; intros _; [first [left; exact I|right; exact I]|exact I].
    + rewrite B1, I1. cbn [negb orb].
      destruct (override_proper st all (cls_of h1) h2 T1 P2) as [A [B C]].
      split; auto. split; auto. intros p Hp. rewrite C. split; auto. intros [H|H]; auto.
      exfalso. rewrite E1 in H. revert H. apply empty_denot; auto.
    + destruct (proper_hbool _ _ _ P1) as [B1 I1]. rewrite B1, I1. cbn [negb orb].
      destruct (prepare_spec st all h1 h2 N T1 T2 (or_intror P1) P2)
        as [ds [h1' [h2' [E [NEd [S [G1 [G2 [D1 D2]]]]]]]]].
      rewrite E. assert (Nd : NoDup ds) by (eapply subseq_nodup; eauto).
      destruct (or_aux_spec O vmem valid L st ds h1' h2' Nd NEd G1 G2) as [R _].
      destruct (finish_spec st all (cls_of h1) ds _ _ N NEd S T1 R) as [A [B C]].
      split; auto. split; auto. intros p Hp. rewrite C, D1, D2 by auto. tauto.
Qed.

(** When [self - other] does not go through the faulty treatment of an empty self: self is
    non-empty, or other is empty or everything, or the first common dimension is active in self. *)
Definition sub_safe (all : list dim) (h1 h2 : hc) : bool :=
  hbool h1 || negb (hbool h2) || is_all h2 ||
  match by_order all (act_of h1 ++ act_of h2) with d :: _ => mem_dim d (act_of h1) | [] => true end.

Lemma sub_aux_empty c c2 a l2 : sub_aux O (Node c a []) (Node c2 a l2) = Node Plain a ([] : list entry).
Proof. cbn [sub_aux]. rewrite dims_eqb_refl. reflexivity. Qed.

Lemma build_empty new c a0 a : subseq (a0 :: a) new -> (exists t, new = a0 :: t) ->
  build O new (Node c (a0 :: a) ([] : list entry)) = Node c new [].
Proof.
  intros S [t ->]. cbn [build].
  assert (Sub : subset_dims (a0 :: a) (a0 :: t) = true)
    by (apply subset_dims_spec; intros x; apply subseq_in; auto).
  rewrite Sub. simpl negb. cbv iota. destruct (dims_eqb (a0 :: a) (a0 :: t)) eqn:Eq.
  - apply dims_eqb_eq in Eq. congruence.
  - rewrite Nat.eqb_refl. rewrite is_last_cons. destruct a as [|a1 a]; simpl negb; cbv iota; auto.
    destruct t; auto. rewrite dims_eqb_refl in Eq. discriminate.
Qed.

Lemma reduce_empty all c a : a <> [] -> reduce_active O all (Node c a ([] : list entry)) = Node c a [].
Proof. destruct a; [congruence|]. reflexivity. Qed.

Lemma sub_all all (h1 : hc) c2 : NoDup all -> all <> [] -> h_sub O all h1 (hall c2) = hempty (cls_of h1) all.
Proof.
  intros N NE. unfold h_sub. cbn [is_all act_of hall hbool negb hempty cls_of]. unfold prepare, hempty, hall. cbn [act_of].
  assert (Ne : dims_eqb all [] = false) by (destruct all; [congruence|reflexivity]).
  rewrite Ne. assert (Ns : subset_dims all [] = false).
  { destruct all as [|d t]; [congruence|]. reflexivity. }
  rewrite Ns. rewrite app_nil_r. cbn [set_active].
  assert (Sa : subset_dims all all = true) by (apply subset_dims_spec; auto). rewrite Sa, Ns.
  rewrite app_nil_l. rewrite by_order_self by (auto; apply subseq_refl).
  rewrite sub_aux_empty. cbn [override cls_of]. rewrite reduce_empty by auto. reflexivity.
Qed.

Lemma dup_by_order all a : NoDup all -> subseq a all -> by_order all (a ++ a) = a.
Proof.
  intros N S. apply (subseq_antisym all); auto; [apply by_order_subseq|]. intro x.
  rewrite by_order_in, in_app_iff. split; [tauto|]. intro H. split; auto. apply (subseq_in _ _ S); auto.
Qed.

(** Subtracting from an empty object: when safe, the result is empty, with the active dimensions of both. *)
Lemma sub_from_empty st all h1 h2 : NoDup all -> (st = true -> cls_of h2 = Plain) ->
  hbool h1 = false -> h1 = Node (cls_of h1) (act_of h1) [] -> act_of h1 <> [] -> subseq (act_of h1) all ->
  proper st all h2 -> sub_safe all h1 h2 = true ->
  h_sub O all h1 h2 = Node (cls_of h1) (by_order all (act_of h1 ++ act_of h2)) [].
Proof.
  intros N T2 B1 E1 NE1 S1 P2 Sf. destruct (proper_hbool _ _ _ P2) as [B2 I2].
  unfold h_sub. rewrite I2, B2. cbn [negb].
  unfold sub_safe in Sf. rewrite B1, B2, I2 in Sf. cbn [negb orb] in Sf.
  pose proof (proper_ok _ _ _ N T2 P2) as Ok2.
  destruct P2 as [NE2 [S2 [G2 R2]]].
  unfold prepare. destruct (dims_eqb (act_of h1) (act_of h2)) eqn:Eq.
  { apply dims_eqb_eq in Eq.
    destruct (act_of h2) as [|d2 a2] eqn:Ea2; [congruence|].
    destruct (gc_inv _ _ _ _ _ _ _ G2) as [c2 [l2 [-> _]]].
    assert (Es : sub_aux O h1 (Node c2 (d2 :: a2) l2) = Node Plain (d2 :: a2) []).
    { rewrite E1, Eq. apply sub_aux_empty. }
    rewrite Es. cbn [override]. rewrite reduce_empty by auto. f_equal. rewrite Eq. symmetry. apply dup_by_order; auto. }
  set (new := by_order all (act_of h1 ++ act_of h2)) in *.
  assert (NEn : new <> []) by (apply by_order_ne; auto).
  assert (Sn : subseq new all) by apply by_order_subseq.
  assert (S1n : subseq (act_of h1) new).
  { apply (subseq_incl all); auto. intros x Hx. apply by_order_in. split; [apply (subseq_in _ _ S1); auto|].
    apply in_app_iff; auto. }
  (* self stays empty *)
  assert (E1' : set_active O all (act_of h1 ++ act_of h2) h1 = Node (cls_of h1) new []).
  { rewrite E1 at 2. cbn [set_active]. destruct (subset_dims (act_of h1 ++ act_of h2) (act_of h1)) eqn:Es.
    - f_equal. apply (subseq_antisym all); auto. intro x. unfold new. rewrite by_order_in, in_app_iff.
      rewrite subset_dims_spec in Es. split.
      + intro Hx. split; auto. apply (subseq_in _ _ S1); auto.
      + intros [_ [Hx|Hx]]; auto. apply Es. apply in_app_iff; auto.
    - rewrite by_order_absorb. fold new. destruct (act_of h1) as [|a0 a] eqn:Ea; [congruence|].
      apply build_empty; auto.
      destruct new as [|n0 nt] eqn:En; [congruence|]. apply mem_dim_In in Sf.
      exists nt. f_equal. inversion S1n; subst; auto. exfalso.
      assert (Nn : NoDup (n0 :: nt)) by (eapply subseq_nodup; eauto). inversion Nn; subst.
      destruct Sf as [->|Sf].
      + apply H2. eapply subseq_in; eauto. simpl; auto.
      + apply H2. eapply subseq_in; eauto. simpl; auto. }
  rewrite E1'.
  assert (Hreq : forall d, In d (act_of h1 ++ act_of h2) -> In d all).
  { intros d Hd. apply in_app_iff in Hd as [Hd|Hd]; [apply (subseq_in _ _ S1)|apply (subseq_in _ _ S2)]; auto. }
  destruct (subset_dims (act_of h1) (act_of h2)) eqn:Es.
  * assert (En : new = act_of h2).
    { apply (subseq_antisym all); auto. intro x. unfold new.
      rewrite by_order_in, in_app_iff. rewrite subset_dims_spec in Es. split.
      - intros [_ [Hx|Hx]]; auto.
      - intro Hx. split; auto. apply (subseq_in _ _ S2); auto. }
    rewrite <- En in G2. destruct new as [|d2 a2]; [congruence|].
    destruct (gc_inv _ _ _ _ _ _ _ G2) as [c2 [l2 [-> _]]].
    rewrite sub_aux_empty. cbn [override]. rewrite reduce_empty by auto. reflexivity.
  * destruct (set_active_spec st all (act_of h1 ++ act_of h2) h2 N NE2 S2 Ok2 Hreq) as [B _].
    rewrite by_order_absorb2 in B. fold new in B.
    destruct new as [|d2 a2]; [congruence|].
    destruct (gc_inv _ _ _ _ _ _ _ B) as [c2 [l2 [-> _]]].
    rewrite sub_aux_empty. cbn [override]. rewrite reduce_empty by auto. reflexivity.
Qed.

Lemma h_sub_spec st all h1 h2 : NoDup all -> all <> [] -> obj st all h1 -> obj st all h2 ->
  sub_safe all h1 h2 = true ->
  let h := h_sub O all h1 h2 in
  obj st all h /\ cls_of h = cls_of h1 /\ (forall p, indom p -> (denot h p <-> denot h1 p /\ ~ denot h2 p)).
Proof.
  intros N NE O1 O2 Sf h. unfold h. clear h.
  pose proof (obj_cases _ _ _ O1) as C1. pose proof (obj_cases _ _ _ O2) as C2.
  destruct O1 as [T1 O1]. destruct O2 as [T2 O2].
  destruct C2 as [C2|[[B2 [I2 [E2 [NE2 S2]]]]|P2]].
  - (* other is everything *)
    rewrite C2. rewrite sub_all by auto.
    split; [apply hempty_obj; auto|]. split; auto. intros p Hp. split.
    + intro H. exfalso. revert H. apply empty_denot; auto.
    + intros [_ H]. exfalso. apply H. exact I.
  - unfold h_sub. rewrite I2, B2. cbn [negb]. split; [split; auto|]. split; auto. intros p Hp. split; [|tauto].
    intro H; split; auto. rewrite E2. apply empty_denot; auto.
  - destruct (proper_hbool _ _ _ P2) as [B2 I2]. unfold h_sub. rewrite I2, B2. cbn [negb].
    destruct C1 as [C1|[[B1 [I1 [E1 [NE1 S1]]]]|P1]].
    + destruct (prepare_spec st all h1 h2 N T1 T2 (or_introl C1) P2)
        as [ds [h1' [h2' [E [NEd [S [G1 [G2 [D1 D2]]]]]]]]].
      rewrite E. assert (Nd : NoDup ds) by (eapply subseq_nodup; eauto).
      pose proof (sub_aux_spec O vmem valid L st ds h1' h2' Nd NEd G1 G2) as R.
      destruct (finish_spec st all (cls_of h1) ds _ _ N NEd S T1 R) as [A [B C]].
      split; auto. split; auto. intros p Hp. rewrite C, D1, D2 by auto. tauto.
    + (* empty self *)
      pose proof (sub_from_empty st all h1 h2 N T2 B1 E1 NE1 S1 P2 Sf) as Es.
      unfold h_sub in Es. rewrite I2, B2 in Es. cbn [negb] in Es. rewrite Es.
      assert (NEd : by_order all (act_of h1 ++ act_of h2) <> []) by (apply by_order_ne; auto).
      split; [|split]; auto.
      * split; auto. right; left. exists (cls_of h1). eexists. split; [reflexivity|]. split; auto. apply by_order_subseq.
      * intros p Hp. split.
        -- intro H. exfalso. revert H. apply empty_denot; auto.
        -- intros [H _]. exfalso. rewrite E1 in H. revert H. apply empty_denot; auto.
    + destruct (prepare_spec st all h1 h2 N T1 T2 (or_intror P1) P2)
        as [ds [h1' [h2' [E [NEd [S [G1 [G2 [D1 D2]]]]]]]]].
      rewrite E. assert (Nd : NoDup ds) by (eapply subseq_nodup; eauto).
      pose proof (sub_aux_spec O vmem valid L st ds h1' h2' Nd NEd G1 G2) as R.
      destruct (finish_spec st all (cls_of h1) ds _ _ N NEd S T1 R) as [A [B C]].
      split; auto. split; auto. intros p Hp. rewrite C, D1, D2 by auto. tauto.
Qed.

(** ** Cubes *)
Definition cube_ok (all : list dim) (cube : list (dim * V)) : Prop :=
  cube <> [] /\ subseq (map fst cube) all /\ Forall (fun p => valid (fst p) (snd p)) cube.
Definition in_cube (p : dim -> P) (cube : list (dim * V)) : Prop :=
  Forall (fun q => vmem (p (fst q)) (snd q)) cube.

Lemma reduce_cube_spec cube : Forall (fun p => valid (fst p) (snd p)) cube ->
  match reduce_cube O cube with
  | None => exists q, In q cube /\ forall x, ~ vmem x (snd q)
  | Some r => subseq r cube /\ Forall (fun q => (exists x, vmem x (snd q)) /\ vwhole O (fst q) (snd q) = false) r /\
              (forall p, indom p -> (in_cube p r <-> in_cube p cube))
  end.
Proof.
  induction cube as [|[d v] t IH]; intros F; cbn [reduce_cube].
  - split; [constructor|]. split; [constructor|]. intros; tauto.
  - inversion F as [|? ? F1 F2]; subst. simpl in F1. specialize (IH F2).
    destruct (vbool O v) eqn:Eb; cbn [negb].
    2:{ exists (d, v). split; [simpl; auto|]. apply (vbool_false O vmem valid L d); auto. }
    destruct (reduce_cube O t) as [r|].
    + destruct IH as [S [Q M]]. destruct (vwhole O d v) eqn:Ew; cbn [negb].
      * split; [constructor; auto|]. split; auto. intros p Hp. rewrite M by auto. unfold in_cube.
        rewrite (L_whole _ _ _ L d v F1) in Ew. split.
        -- intro H. constructor; auto.
        -- intro H. inversion H; auto.
      * split; [constructor; auto|]. split.
        -- constructor; auto. simpl. split; auto. apply (vbool_true O vmem valid L d); auto.
        -- intros p Hp. unfold in_cube in *. split; intro H; inversion H; constructor; auto; apply M; auto.
    + destruct IH as [q [Hq Hn]]. exists q. simpl; auto.
Qed.

Lemma create_aux_spec st r : r <> [] -> NoDup (map fst r) -> Forall (fun p => valid (fst p) (snd p)) r ->
  Forall (fun q => (exists x, vmem x (snd q)) /\ vwhole O (fst q) (snd q) = false) r ->
  gc st (map fst r) (create_aux r) /\ cls_of (create_aux r) = Plain /\
  (forall p, tmem (map fst r) p (create_aux r) <-> in_cube p r) /\
  (forall d, In d (map fst r) -> exists v, In (d, v) r /\ vals_at (map fst r) d (create_aux r) = [v]).
Proof.
  induction r as [|[d v] t IH]; intros NE N F Q; [congruence|].
  inversion F as [|? ? F1 F2]; subst. inversion Q as [|? ? [Q1 Q1'] Q2]; subst. simpl in F1, Q1.
  inversion N as [|? ? N0 N1]; subst.
  assert (Sub : exists s, create_aux ((d, v) :: t) = Node Plain (d :: map fst t) [(v, s)] /\
     ok st (map fst t) s /\ (forall p, tmem (map fst t) p s <-> in_cube p t) /\
     (forall e, In e (map fst t) -> exists v', In (e, v') t /\ vals_at (map fst t) e s = [v'])).
  { destruct t as [|q t'].
    - exists Leaf. split; auto. split; [apply ok_leaf|]. split.
      + intro p. unfold in_cube. simpl. split; [constructor|auto].
      + intros e [].
    - destruct IH as [A [B [C D]]]; auto; [discriminate|].
      exists (create_aux (q :: t')). split; [reflexivity|]. split; auto. split; auto.
      destruct st; simpl; auto. fold (create_aux (q :: t')). intros E. simpl in B, E. rewrite B in E. discriminate. }
  destruct Sub as [s [-> [Os [Ts Vs]]]]. simpl map. split; [|split; [|split]]; auto.
  - apply (single_gc O vmem valid st d (map fst t) Plain v s); auto.
  - intro p. unfold in_cube. simpl. split.
    + intros [v' [s' [[E|[]] [M T]]]]. injection E as <- <-. constructor; auto. apply Ts; auto.
    + intros H. inversion H; subst. exists v, s. repeat split; auto. apply Ts; auto.
  - intros e He. destruct (Nat.eq_dec d e) as [->|Ne].
    + exists v. split; [simpl; auto|]. rewrite vals_head. reflexivity.
    + destruct He as [E|He]; [simpl in E; congruence|]. destruct (Vs e He) as [v' [Hin Ev]].
      exists v'. split; [simpl; auto|]. rewrite vals_tail by auto. cbn [layers_of flat_map snd].
      rewrite Ev. reflexivity.
Qed.

Lemma subseq_map {A B} (f : A -> B) a l : subseq a l -> subseq (map f a) (map f l).
Proof. induction 1; simpl; constructor; auto. Qed.

Lemma create_from_cube_spec st all cube : NoDup all -> all <> [] -> cube_ok all cube ->
  let h := create_from_cube O all cube in
  obj st all h /\ cls_of h = Plain /\ (forall p, indom p -> (denot h p <-> in_cube p cube)).
Proof.
  intros N NE [NEc [S F]] h. unfold h, create_from_cube. destruct cube as [|q0 qt]; [congruence|].
  pose proof (reduce_cube_spec _ F) as R. destruct (reduce_cube O (q0 :: qt)) as [r|].
  - destruct R as [Sr [Q M]].
    assert (Fr : Forall (fun p => valid (fst p) (snd p)) r).
    { apply Forall_forall. rewrite Forall_forall in F. intros q Hq. apply F. eapply subseq_in; eauto. }
    assert (Sr' : subseq (map fst r) all).
    { eapply subseq_trans; [apply subseq_map; eauto|auto]. }
    destruct r as [|[d v] t].
    + split; [apply hall_obj; auto|]. split; auto. intros p Hp. rewrite <- M by auto. unfold in_cube.
      split; intros _; [constructor|exact I].
    + set (r := (d, v) :: t) in *. assert (NEr : r <> []) by discriminate.
      assert (Nr : NoDup (map fst r)) by (eapply subseq_nodup; eauto).
      destruct (create_aux_spec st r NEr Nr Fr Q) as [A [B [C D]]].
      assert (Ea : act_of (create_aux r) = map fst r).
      { exact (gc_node O vmem valid _ _ _ _ A). }
      split; [|split]; auto.
      * split; auto. right; right. unfold HyperDims.proper. rewrite Ea. repeat split; auto; try discriminate.
        intros e He. rewrite Ea in He. destruct (full_dim O (create_aux r) e) eqn:Ef; auto. exfalso.
        apply (full_dim_spec O vmem valid L st) in Ef; rewrite ?Ea in *; auto.
        destruct (D e He) as [u [Hin Ev]]. rewrite Ev in Ef. inversion Ef as [|? ? Ef1 _]; subst.
        rewrite Forall_forall in Q, Fr. destruct (Q _ Hin) as [_ Qw]. simpl in Qw.
        assert (Wt : vwhole O e u = true) by (apply (L_whole _ _ _ L e u); auto; apply (Fr _ Hin)).
        congruence.
      * intros p Hp. rewrite <- M by auto. unfold HyperFacts.denot. rewrite Ea. apply C.
  - split; [apply hempty_obj; auto|]. split; auto. intros p Hp.
    destruct R as [q [Hq Hn]]. split.
    + intro H. exfalso. revert H. apply empty_denot; auto.
    + intro H. exfalso. unfold in_cube in H. rewrite Forall_forall in H. apply (Hn _ (H _ Hq)).
Qed.

(** ** Truth value, membership *)
Lemma hbool_spec st all h : NoDup all -> obj st all h -> (hbool h = true <-> exists p, indom p /\ denot h p).
Proof.
  intros N Oh. destruct (obj_cases _ _ _ Oh) as [E|[[B [_ [E [NE _]]]]|Pr]].
  - rewrite E. simpl. split; auto. intros _. destruct (indom_ex O vmem valid L) as [p Hp]. exists p. split; [auto|exact I].
  - rewrite B. split; [discriminate|]. intros [p [_ H]]. rewrite E in H. exfalso. revert H. apply empty_denot; auto.
  - destruct (proper_hbool _ _ _ Pr) as [B _]. split; auto. intros _.
    destruct Pr as [NE [S [G R]]]. apply (gc_nonempty O vmem valid L st); auto.
    eapply subseq_nodup; eauto.
Qed.

Lemma is_all_spec st all h : NoDup all -> obj st all h -> (is_all h = true <-> forall p, indom p -> denot h p).
Proof.
  intros N Oh. destruct (obj_cases _ _ _ Oh) as [E|[[B [I [E [NE _]]]]|Pr]].
  - rewrite E. simpl. split; auto. intros _ p _. exact I.
  - rewrite I. split; [discriminate|]. intros H. destruct (indom_ex O vmem valid L) as [p Hp].
    specialize (H p Hp). rewrite E in H. exfalso. revert H. apply empty_denot; auto.
  - destruct (proper_hbool _ _ _ Pr) as [_ I]. rewrite I. split; [discriminate|]. intro H. exfalso.
    apply (proper_not_full O vmem valid L st all h N Pr). exact H.
Qed.

Lemma contains_tree st ds h p : gc st ds h -> ds <> [] -> (contains O p h = true <-> tmem ds p h).
Proof.
  revert h. induction ds as [|d ds IH]; intros h G NE; [congruence|].
  destruct (gc_inv _ _ _ _ _ _ _ G) as [c [ls [-> [_ [[K D] [F _]]]]]]. clear G NE.
  cbn [contains]. induction ls as [|[v s] t IHl].
  - simpl. split; [discriminate|]. intros [v [s [[] _]]].
  - inversion K as [|? ? [K1 K2] K3]; subst. inversion D as [|? ? D1 D2]; subst.
    inversion F as [|? ? [F1 _] F3]; subst. cbn [fst snd] in *.
    destruct (vin O (p d) v) eqn:E.
    + apply (L_in _ _ _ L d) in E; auto.
      rewrite (node_section vmem d ds c (d :: ds) ((v, s) :: t) p v s); simpl; auto.
      destruct ds as [|d' ds']; [simpl; tauto|]. apply IH; auto. discriminate.
    + rewrite (IHl K3 D2 F3). clear IHl.
      assert (Nm : ~ vmem (p d) v) by (rewrite <- (L_in _ _ _ L d) by auto; congruence).
      split.
      * intros [v' [s' [Hin R]]]. exists v', s'. simpl; auto.
      * intros [v' [s' [[E'|Hin] [M R]]]]; [injection E' as <- <-; contradiction|]. exists v', s'. auto.
Qed.

Lemma contains_spec st all h p : NoDup all -> obj st all h -> (contains O p h = true <-> denot h p).
Proof.
  intros N Oh. destruct (obj_cases _ _ _ Oh) as [E|[[B [I [E [NE _]]]]|Pr]].
  - rewrite E. split; [intros _; exact I|reflexivity].
  - rewrite E. unfold HyperFacts.denot. cbn [act_of]. destruct (act_of h); [congruence|]. simpl.
    split; [discriminate|]. intros [v [s [[] _]]].
  - destruct Pr as [NE [S [G R]]]. apply (contains_tree st (act_of h)); auto.
Qed.

(** ** Equality *)
Lemma indom_upd_indep h d p x : ~ In d (act_of h) -> (denot h (upd p d x) <-> denot h p).
Proof. intros Hn. unfold HyperFacts.denot. apply tmem_upd; auto. Qed.

Lemma proper_active all h d : NoDup all -> proper true all h -> In d (act_of h) ->
  (forall p x, indom p -> vmem x (vdom O d) -> (denot h (upd p d x) <-> denot h p)) -> False.
Proof.
  intros N [NE [S [G R]]] Hd I.
  assert (Fd : full_dim O h d = true).
  { apply (full_dim_spec O vmem valid L true); auto. apply (indep_vals O vmem valid L); auto.
    eapply subseq_nodup; eauto. }
  rewrite (R d Hd) in Fd. discriminate.
Qed.

Lemma eqb_objects_sound st all h1 h2 : NoDup all -> obj st all h1 -> obj st all h2 ->
  hc_eqb O h1 h2 = true -> forall p, indom p -> (denot h1 p <-> denot h2 p).
Proof.
  intros N O1 O2 E p Hp.
  destruct (obj_cases _ _ _ O1) as [E1|[[B1 [I1 [E1 [NE1 S1]]]]|P1]];
  destruct (obj_cases _ _ _ O2) as [E2|[[B2 [I2 [E2 [NE2 S2]]]]|P2]].
  - rewrite E1, E2. split; intros _; exact I.
  - exfalso. rewrite E1, E2 in E. destruct (act_of h2); [congruence|].
    simpl in E. destruct (cls_eqb (cls_of h1) (cls_of h2)); discriminate.
  - exfalso. destruct (proper_shape _ _ _ P2) as [c [d [ds [ls [-> NE]]]]]. rewrite E1 in E.
    destruct ls; [congruence|]. simpl in E. destruct (cls_eqb (cls_of h1) c); discriminate.
  - exfalso. rewrite E1, E2 in E. destruct (act_of h1); [congruence|].
    simpl in E. destruct (cls_eqb (cls_of h1) (cls_of h2)); discriminate.
  - rewrite E1, E2. split; intro H; exfalso; revert H; apply empty_denot; auto.
  - exfalso. destruct (proper_shape _ _ _ P2) as [c [d [ds [ls [-> NE]]]]]. rewrite E1 in E.
    destruct ls; [congruence|]. destruct (act_of h1); [congruence|]. simpl in E.
    destruct (cls_eqb (cls_of h1) c); try discriminate. simpl in E.
    rewrite andb_false_r in E. discriminate.
  - exfalso. destruct (proper_shape _ _ _ P1) as [c [d [ds [ls [-> NE]]]]]. rewrite E2 in E.
    destruct ls; [congruence|]. simpl in E. destruct (cls_eqb c (cls_of h2)); discriminate.
  - exfalso. destruct (proper_shape _ _ _ P1) as [c [d [ds [ls [-> NE]]]]]. rewrite E2 in E.
    destruct ls; [congruence|]. destruct (act_of h2); [congruence|]. simpl in E.
    destruct (cls_eqb c (cls_of h2)); try discriminate. simpl in E.
    rewrite andb_false_r in E. discriminate.
  - assert (Ea : act_of h1 = act_of h2).
    { destruct (proper_shape _ _ _ P1) as [c1 [d1 [ds1 [l1 [-> N1]]]]].
      destruct (proper_shape _ _ _ P2) as [c2 [d2 [ds2 [l2 [-> N2]]]]].
      destruct l1; [congruence|]. cbn [hc_eqb] in E. destruct (cls_eqb c1 c2); [|discriminate].
      cbn [hbool negb andb] in E. apply andb_true_iff in E as [E _]. apply andb_true_iff in E as [E _].
      apply dims_eqb_eq in E. auto. }
    unfold HyperFacts.denot. rewrite <- Ea. destruct P1 as [NE1 [S1 [G1 R1]]]. destruct P2 as [NE2 [S2 [G2 R2]]].
    rewrite <- Ea in G2. apply (eqb_sound O vmem valid L st); auto.
Qed.

Lemma eqb_objects_complete all h1 h2 : NoDup all -> obj true all h1 -> obj true all h2 ->
  (forall p, indom p -> (denot h1 p <-> denot h2 p)) -> hc_eqb O h1 h2 = true.
Proof.
  intros N O1 O2 S. destruct (indom_ex O vmem valid L) as [q Hq].
  pose proof (proj1 O1 eq_refl) as T1. pose proof (proj1 O2 eq_refl) as T2.
  destruct (obj_cases _ _ _ O1) as [E1|[[B1 [I1 [E1 [NE1 S1]]]]|P1]];
  destruct (obj_cases _ _ _ O2) as [E2|[[B2 [I2 [E2 [NE2 S2]]]]|P2]].
  - rewrite E1, E2, T1, T2. reflexivity.
  - exfalso. specialize (S q Hq). rewrite E1, E2 in S. apply (empty_denot (cls_of h2) (act_of h2) q NE2).
    apply S. exact I.
  - exfalso. apply (proper_not_full O vmem valid L true all h2 N P2). intros p Hp. apply S; auto.
    rewrite E1. exact I.
  - exfalso. specialize (S q Hq). rewrite E1, E2 in S. apply (empty_denot (cls_of h1) (act_of h1) q NE1).
    apply S. exact I.
  - rewrite E1, E2, T1, T2. destruct (act_of h1); [congruence|]. destruct (act_of h2); [congruence|]. reflexivity.
  - exfalso. destruct (proj1 (hbool_spec true all h2 N O2) (proj1 (proper_hbool _ _ _ P2))) as [p [Hp D]].
    apply S in D; auto. rewrite E1 in D. revert D. apply empty_denot; auto.
  - exfalso. apply (proper_not_full O vmem valid L true all h1 N P1). intros p Hp. apply S; auto.
    rewrite E2. exact I.
  - exfalso. destruct (proj1 (hbool_spec true all h1 N O1) (proj1 (proper_hbool _ _ _ P1))) as [p [Hp D]].
    apply S in D; auto. rewrite E2 in D. revert D. apply empty_denot; auto.
  - assert (Ea : act_of h1 = act_of h2).
    { apply (subseq_antisym all); auto; [apply P1|apply P2|]. intro d. split; intro Hd.
      - destruct (in_dec Nat.eq_dec d (act_of h2)) as [H|H]; auto. exfalso.
        apply (proper_active all h1 d N P1 Hd). intros p x Hp Hx.
        rewrite (S p Hp), (S (upd p d x)) by (apply upd_indom; auto). apply indom_upd_indep; auto.
      - destruct (in_dec Nat.eq_dec d (act_of h1)) as [H|H]; auto. exfalso.
        apply (proper_active all h2 d N P2 Hd). intros p x Hp Hx.
        rewrite <- (S p Hp), <- (S (upd p d x)) by (apply upd_indom; auto). apply indom_upd_indep; auto. }
    destruct P1 as [NE1 [S1 [G1 R1]]]. destruct P2 as [NE2 [S2 [G2 R2]]].
    apply (eqb_complete_strict O vmem valid L (act_of h1)); auto.
    + eapply subseq_nodup; eauto.
    + rewrite Ea; auto.
    + congruence.
    + intros p Hp. unfold HyperFacts.denot in S. rewrite (S p Hp), Ea. tauto.
Qed.

(** An intersection of two objects, neither of which is everything, is canonical up to the class of its root, even
    if the class tags inside the operands are mixed. *)
Lemma h_and_rebuilt all h1 h2 : NoDup all -> all <> [] -> obj false all h1 -> obj false all h2 ->
  is_all h1 = false -> is_all h2 = false -> obj true all (override Plain (h_and O all h1 h2)).
Proof.
  intros N NE O1 O2 I1 I2. unfold h_and. rewrite I1, I2.
  assert (E0 : forall a, a <> [] -> subseq a all -> obj true all (Node Plain a [])).
  { intros a Na Sa. split; auto. right; left. exists Plain, a. auto. }
  destruct (negb (hbool h2) || negb (hbool h1)) eqn:B; [apply E0; auto; apply subseq_refl|].
  apply orb_false_iff in B as [B2 B1]. apply negb_false_iff in B1, B2.
  destruct (obj_cases _ _ _ O1) as [E|[(X & _)|P1]]; [rewrite E in I1; discriminate|congruence|].
  destruct (obj_cases _ _ _ O2) as [E|[(X & _)|P2]]; [rewrite E in I2; discriminate|congruence|].
  assert (T : forall h : hc, false = true -> cls_of h = Plain) by discriminate.
  destruct (prepare_spec false all h1 h2 N (T h1) (T h2) (or_intror P1) P2)
    as [ds [h1' [h2' [E [NEd [S [G1 [G2 _]]]]]]]].
  rewrite E. assert (Nd : NoDup ds) by (eapply subseq_nodup; eauto).
  destruct (and_aux_rebuilds O vmem valid L true false ds h1' h2' Nd NEd G1 G2) as [ls [-> [[->|G] _]]]; cbn [override].
  - destruct ds as [|d ds]; [congruence|]. unfold reduce_active. cbn [hbool negb orb override]. apply E0; auto.
  - assert (G' : gc true ds (Node (cls_of h1) ds ls)) by (eapply gc_retag; eauto).
    destruct (reduce_active_spec O vmem valid L true all (Node (cls_of h1) ds ls)) as [_ [_ [C|C]]]; auto.
    + rewrite C. split; auto. left. exists Plain. reflexivity.
    + apply (override_proper true all Plain _ (fun _ => eq_refl) C).
Qed.
Lemma override_eqb c h1 h2 : cls_of h1 = c -> cls_of h2 = c -> hc_eqb O (override Plain h1) (override Plain h2) = true ->
  hc_eqb O h1 h2 = true.
Proof.
  destruct h1, h2; cbn [override hc_eqb]; try discriminate. cbn [cls_of]. intros <- ->.
  assert (R : forall k, cls_eqb k k = true) by (intros [|]; reflexivity). rewrite !R. auto.
Qed.
Lemma eqb_intersections all x y r : NoDup all -> all <> [] -> obj false all x -> obj false all y -> obj false all r ->
  cls_of x = cls_of y -> is_all x = false -> is_all y = false -> is_all r = false ->
  (forall p, indom p -> (denot (h_and O all x r) p <-> denot (h_and O all y r) p)) ->
  hc_eqb O (h_and O all x r) (h_and O all y r) = true.
Proof.
  intros N NE Ox Oy Or Ec Ix Iy Ir S.
  destruct (h_and_spec false all x r N NE Ox Or) as (_ & Cx & _). destruct (h_and_spec false all y r N NE Oy Or) as (_ & Cy & _).
  pose proof (h_and_rebuilt all x r N NE Ox Or Ix Ir) as Qx. pose proof (h_and_rebuilt all y r N NE Oy Or Iy Ir) as Qy.
  apply (override_eqb (cls_of x)); [auto|congruence|]. apply (eqb_objects_complete all); auto.
  assert (D : forall h p, denot (override Plain h) p <-> denot h p).
  { intros h p. destruct h; unfold HyperFacts.denot; simpl act_of; cbn [override]; try tauto. apply tmem_retag. }
  intros p Hp. rewrite !D. auto.
Qed.

(** ** Enumeration of cubes *)
Fixpoint cmem (ds : list dim) (p : dim -> P) (c : list V) : Prop :=
  match ds, c with
  | [], [] => True
  | d :: ds', v :: c' => vmem (p d) v /\ cmem ds' p c'
  | _, _ => False
  end.

Lemma cubes_node c d ds (ls : list entry) : cubes_list (Node c (d :: ds) ls) =
  match ds with
  | [] => map (fun p => [fst p]) ls
  | _ => flat_map (fun p => map (fun k => fst p :: k) (cubes_list (snd p))) ls
  end.
Proof.
  cbn [cubes_list]. rewrite is_last_cons. destruct ds; auto.
  apply flat_map_ext_in. intros [v s] _. reflexivity.
Qed.

Lemma cubes_tree st ds h : ds <> [] -> gc st ds h ->
  (forall p, tmem ds p h <-> exists k, In k (cubes_list h) /\ cmem ds p k) /\
  (forall k, In k (cubes_list h) -> length k = length ds /\ Forall (fun v => exists x, vmem x v) k) /\
  ForallOrdPairs (fun k1 k2 => forall p, cmem ds p k1 -> cmem ds p k2 -> False) (cubes_list h) /\
  cubes_list h <> [].
Proof.
  revert h. induction ds as [|d ds IH]; intros h NE G; [congruence|].
  destruct (gc_inv _ _ _ _ _ _ _ G) as [c [ls [-> [NEl [[K D] [F _]]]]]].
  rewrite cubes_node. rewrite Forall_forall in F. destruct ds as [|d' ds'].
  - split; [|split; [|split]].
    + intro p. simpl. split.
      * intros [v [s [Hin [M _]]]]. exists [v]. split; auto. apply in_map_iff. exists (v, s). auto.
      * intros [k [Hin M]]. apply in_map_iff in Hin as [[v s] [<- Hin]]. simpl in M. exists v, s. tauto.
    + intros k Hin. apply in_map_iff in Hin as [[v s] [<- Hin]]. split; auto. constructor; auto. simpl.
      apply (keyok_in _ _ _ _ _ _ K Hin).
    + apply (FOP_map disj); auto. intros a b _ _ Dj p. simpl. intros [M1 _] [M2 _]. apply (Dj (p d)); auto.
    + destruct ls; simpl; congruence.
  - assert (NE' : d' :: ds' <> []) by discriminate.
    assert (IHs : forall e, In e ls -> _) by (intros e He; exact (IH (snd e) NE' (proj1 (F e He)))).
    split; [|split; [|split]].
    + intro p. cbn [HyperFacts.tmem]. split.
      * intros [v [s [Hin [M T]]]]. destruct (IHs _ Hin) as [A _]. apply A in T as [k [Hk Ck]].
        exists (v :: k). split; [|split; auto]. apply in_flat_map. exists (v, s). split; auto.
        apply in_map_iff. exists k. auto.
      * intros [k [Hin M]]. apply in_flat_map in Hin as [[v s] [Hin Hk]]. apply in_map_iff in Hk as [k' [<- Hk]].
        destruct M as [M1 M2]. exists v, s. split; auto. split; auto. destruct (IHs _ Hin) as [A _].
        apply A. exists k'. auto.
    + intros k Hin. apply in_flat_map in Hin as [[v s] [Hin Hk]]. apply in_map_iff in Hk as [k' [<- Hk]].
      destruct (IHs _ Hin) as [_ [B _]]. destruct (B _ Hk) as [B1 B2]. split; [simpl in *; congruence|].
      constructor; auto. apply (keyok_in _ _ _ _ _ _ K Hin).
    + clear NEl G. induction D as [|[v s] t Hd Dt IHt]; simpl; [constructor|].
      apply FOP_app.
      * destruct (IHs (v, s) (or_introl eq_refl)) as [_ [_ [C _]]].
        apply (FOP_map (fun k1 k2 => forall p, cmem (d' :: ds') p k1 -> cmem (d' :: ds') p k2 -> False)); auto.
        intros a b _ _ Dj p [_ M1] [_ M2]. apply (Dj p); auto.
      * apply IHt.
        -- inversion K; auto.
        -- intros x Hx. apply F. simpl; auto.
        -- intros e He. apply IHs. simpl; auto.
      * intros a b Ha Hb p Ma Mb. apply in_map_iff in Ha as [ka [<- _]].
        apply in_flat_map in Hb as [[v2 s2] [Hin2 Hb]]. apply in_map_iff in Hb as [kb [<- _]].
        rewrite Forall_forall in Hd. apply (Hd _ Hin2 (p d)); simpl; [apply Ma|apply Mb].
    + destruct ls as [|[v s] t]; [congruence|]. simpl. destruct (IHs (v, s) (or_introl eq_refl)) as [_ [_ [_ NEk]]].
      simpl in NEk. destruct (cubes_list s); [congruence|]. simpl. discriminate.
Qed.

Lemma cmem_all_dom (ds : list dim) p : indom p -> cmem ds p (map (vdom O) ds).
Proof. intros Hp. induction ds; simpl; auto. Qed.

(** The dimensions the enumerated cubes refer to (CanonicalHyperCubeSet.__iter__). *)
Definition iter_dims (all : list dim) (h : hc) : list dim := if is_all h then all else act_of h.

Lemma iter_spec st all h : NoDup all -> obj st all h ->
  (forall p, indom p -> (denot h p <-> exists k, In k (iter_cubes O all h) /\ cmem (iter_dims all h) p k)) /\
  (forall k, In k (iter_cubes O all h) ->
     length k = length (iter_dims all h) /\ Forall (fun v => exists x, vmem x v) k) /\
  ForallOrdPairs (fun k1 k2 => forall p, cmem (iter_dims all h) p k1 -> cmem (iter_dims all h) p k2 -> False)
    (iter_cubes O all h) /\
  hlen h = length (iter_cubes O all h).
Proof.
  intros N Oh. unfold iter_cubes, iter_dims, hlen.
  destruct (obj_cases _ _ _ Oh) as [E|[[B [I [E [NE _]]]]|Pr]].
  - rewrite E. cbn [hall is_all act_of]. split; [|split; [|split]].
    + intros p Hp. split; [|intros _; exact I]. intros _. eexists. split; [left; reflexivity|]. apply cmem_all_dom; auto.
    + intros k [<-|[]]. rewrite map_length. split; auto. apply Forall_forall. intros v Hv.
      apply in_map_iff in Hv as [d [<- _]]. apply (L_dom_ne _ _ _ L).
    + repeat constructor.
    + reflexivity.
  - rewrite I, E. cbn [act_of]. destruct (act_of h) as [|d ds] eqn:Ea; [congruence|].
    rewrite cubes_node. split; [|split; [|split]].
    + intros p Hp. split.
      * intro H. exfalso. revert H. apply empty_denot; auto.
      * destruct ds; simpl; intros [k [[] _]].
    + destruct ds; simpl; intros k [].
    + destruct ds; simpl; constructor.
    + reflexivity.
  - destruct (proper_hbool _ _ _ Pr) as [_ I]. rewrite I. destruct Pr as [NE [S [G R]]].
    destruct (cubes_tree st (act_of h) h NE G) as [A [B [C D]]]. split; [|split; [|split]]; auto.
    intros p Hp. apply A.
Qed.

(** ** get_first_item *)
Lemma find_combine (ds : list dim) (k : list V) d v : NoDup ds -> In (d, v) (combine ds k) ->
  find (fun q => Nat.eqb (fst q) d) (combine ds k) = Some (d, v).
Proof.
  revert k. induction ds as [|d0 ds IH]; intros k N H; destruct k as [|v0 k]; simpl in H; try contradiction.
  inversion N; subst. cbn [combine find fst]. destruct H as [E|H].
  - injection E as -> ->. rewrite Nat.eqb_refl. reflexivity.
  - destruct (Nat.eqb_spec d0 d) as [->|Ne]; auto. exfalso. apply in_combine_l in H. contradiction.
Qed.

Lemma cmem_rep (ds : list dim) (k : list V) (p : dim -> P) : length k = length ds ->
  (forall d v, In (d, v) (combine ds k) -> vmem (p d) v) -> cmem ds p k.
Proof.
  revert k. induction ds as [|d ds IH]; intros k Hl Hp; destruct k as [|v k]; simpl in *; try discriminate; auto.
Qed.

Lemma tree_keys_valid st ds h k d v : ds <> [] -> gc st ds h -> In k (cubes_list h) -> In (d, v) (combine ds k) ->
  valid d v.
Proof.
  revert h k. induction ds as [|d0 ds IH]; intros h k NE G Hk H; [congruence|].
  destruct (gc_inv _ _ _ _ _ _ _ G) as [c [ls [-> [NEl [[K D] [F _]]]]]].
  rewrite cubes_node in Hk. rewrite Forall_forall in F. destruct ds as [|d' ds'].
  - apply in_map_iff in Hk as [[v0 s] [<- Hin]]. simpl in H. destruct H as [E|[]]. injection E as -> ->.
    apply (keyok_in _ _ _ _ _ _ K Hin).
  - apply in_flat_map in Hk as [[v0 s] [Hin Hk]]. apply in_map_iff in Hk as [k' [<- Hk]].
    destruct H as [E|H].
    + injection E as -> ->. apply (keyok_in _ _ _ _ _ _ K Hin).
    + apply (IH s k'); auto; [discriminate|]. apply (F _ Hin).
Qed.

Lemma map_in {A B} (f g : A -> B) l : map f l = map g l -> forall x, In x l -> f x = g x.
Proof. induction l; simpl; intros H x []; injection H; intros; subst; auto. Qed.

Lemma first_item_spec st all h : NoDup all -> obj st all h ->
  match first_item O all h with
  | None => hbool h = false
  | Some xs => length xs = length all /\ forall p, map p all = xs -> (forall d, In d all -> vmem (p d) (vdom O d)) /\ denot h p
  end.
Proof.
  intros N Oh. unfold first_item. destruct (hbool h) eqn:Eb; cbn [negb]; auto.
  split; [apply map_length|]. intros p Hp. pose proof (map_in _ _ _ Hp) as Hin. clear Hp.
  destruct (obj_cases _ _ _ Oh) as [E|[[B [I0 [E [NE _]]]]|Pr]]; [|congruence|].
  - rewrite E in *. cbn [hall is_all act_of combine find] in Hin. split; [|exact I].
    intros d Hd. rewrite (Hin d Hd). apply (L_rep _ _ _ L d); [apply (L_dom _ _ _ L)|apply (L_dom_ne _ _ _ L)].
  - destruct (proper_hbool _ _ _ Pr) as [_ Ia]. rewrite Ia in Hin. destruct Pr as [NE [S [G R]]].
    destruct (cubes_tree st (act_of h) h NE G) as [A [B [C D]]].
    destruct (cubes_list h) as [|k rest] eqn:Ek; [congruence|].
    assert (Hk : In k (cubes_list h)) by (rewrite Ek; simpl; auto).
    assert (Nd : NoDup (act_of h)) by (eapply subseq_nodup; eauto).
    destruct (B k (or_introl eq_refl)) as [Lk Fk]. rewrite Forall_forall in Fk.
    assert (M : forall d v, In (d, v) (combine (act_of h) k) -> vmem (p d) v).
    { intros d v H. pose proof (in_combine_l _ _ _ _ H) as Hd.
      rewrite (Hin d) by (eapply subseq_in; eauto).
      rewrite (find_combine _ _ _ _ Nd H). apply (L_rep _ _ _ L d).
      - eapply tree_keys_valid; eauto.
      - apply Fk. eapply in_combine_r; eauto. }
    split.
    + intros d Hd. rewrite (Hin d Hd).
      destruct (find _ _) as [[d' v]|] eqn:Ef.
      * apply find_some in Ef as [Ef1 Ef2]. simpl in Ef2. apply Nat.eqb_eq in Ef2. subst d'.
        apply (L_sub_dom _ _ _ L d v).
        -- eapply tree_keys_valid; eauto.
        -- apply (L_rep _ _ _ L d); [eapply tree_keys_valid; eauto|]. apply Fk. eapply in_combine_r; eauto.
      * apply (L_rep _ _ _ L d); [apply (L_dom _ _ _ L)|apply (L_dom_ne _ _ _ L)].
    + apply A. exists k. split; [simpl; auto|]. apply cmem_rep; auto.
Qed.
End TopFacts.
