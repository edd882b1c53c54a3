(** * Changing the active dimensions: build_new_active_dimensions,
      _remove_some_active_dimensions, reduce_active_dimensions. *)
From Coq Require Import List Bool Arith Lia.
Import ListNotations.
From Verif Require Import HyperModel HyperFacts HyperOps.

Section DimFacts.
Context {V P : Type} (O : vops V P) (vmem : P -> V -> Prop) (valid : dim -> V -> Prop)
        (L : vlaws O vmem valid).
Notation hc := (hc V).
Notation entry := (V * hc)%type.
Notation tmem := (tmem vmem).
Notation indom := (indom O vmem).
Notation same := (same O vmem).
Notation full := (full O vmem).
Notation rel := (rel O vmem).
Notation tagok := (tagok O vmem).
Notation keyok := (keyok vmem valid).
Notation disj := (disj vmem).
Notation pdisj := (pdisj vmem).
Notation lok := (lok vmem valid).
Notation gc := (gc O vmem valid).
Notation ok := (ok O vmem valid).

Lemma rel_transfer st ds ds' (s s' t t' : hc) :
  (forall p, indom p -> (tmem ds p s <-> tmem ds' p t)) ->
  (forall p, indom p -> (tmem ds p s' <-> tmem ds' p t')) ->
  rel st ds' t t' -> rel st ds s s'.
Proof.
  intros H H'. unfold HyperFacts.rel. destruct st.
  - intros R p Hp. rewrite H, H' by auto. apply R; auto.
  - intros [F F']. split; intros p Hp; [apply H|apply H']; auto.
Qed.

Lemma tagok_transfer st ds ds' (s t : hc) :
  (forall p, indom p -> (tmem ds p s <-> tmem ds' p t)) -> cls_of s = cls_of t ->
  tagok st ds s -> tagok st ds' t.
Proof.
  intros H E. unfold HyperFacts.tagok. rewrite <- E. destruct st; auto.
  intros Q C F. apply Q; auto. intros p Hp. apply H; auto.
Qed.

(** Mapping the sub-objects of a node. *)
Lemma map_node st d ds ds' c ls (f : hc -> hc) :
  gc st (d :: ds) (Node c (d :: ds) ls) ->
  (forall s, ok st ds s -> gc st ds' (f s) /\ (forall p, indom p -> (tmem ds' p (f s) <-> tmem ds p s)) /\
                           cls_of (f s) = cls_of s) ->
  gc st (d :: ds') (Node c (d :: ds') (map (fun p => (fst p, f (snd p))) ls)) /\
  (forall p, indom p -> (tmem (d :: ds') p (Node c (d :: ds') (map (fun p => (fst p, f (snd p))) ls)) <->
                         tmem (d :: ds) p (Node c (d :: ds) ls))).
Proof.
  intros G Hf. destruct (gc_inv _ _ _ _ _ _ _ G) as [c' [ls' [E [NE [[K D] [F R]]]]]].
  injection E as <- <-. rewrite Forall_forall in F.
  split.
  - simpl. repeat split.
    + destruct ls; simpl; congruence.
    + apply Forall_forall. intros e He. apply in_map_iff in He as [[v s] [<- Hin]]. simpl.
      apply (keyok_in _ _ _ _ _ _ K Hin).
    + apply (FOP_map disj); auto.
    + apply Forall_forall. intros e He. apply in_map_iff in He as [[v s] [<- Hin]]. simpl.
      destruct (Hf s) as [A [B C]]; [apply (F _ Hin)|]. split; auto.
      apply (tagok_transfer st ds ds' s); auto.
      * intros p Hp. symmetry. auto.
      * apply (F _ Hin).
    + apply (FOP_map (fun p q => ~ rel st ds (snd p) (snd q))); auto.
      intros [v s] [v' s'] Hin Hin' Nr Rl. apply Nr. simpl in *.
      apply (rel_transfer st ds ds' s s' (f s) (f s')); auto.
      * intros p Hp. symmetry. apply Hf; auto. apply (F _ Hin).
      * intros p Hp. symmetry. apply Hf; auto. apply (F _ Hin').
  - intros p Hp. simpl. split.
    + intros [v [t [Hin [M T]]]]. apply in_map_iff in Hin as [[v0 s] [E Hin]]. injection E as -> <-.
      exists v, s. repeat split; auto. simpl in T. apply Hf in T; auto. apply (F _ Hin).
    + intros [v [s [Hin [M T]]]]. exists v, (f s). repeat split; auto.
      * apply in_map_iff. exists (v, s). auto.
      * apply Hf; auto. apply (F _ Hin).
Qed.

Lemma rel_leaf st : rel st [] Leaf Leaf.
Proof. destruct st; simpl; [intros p _; tauto|split; intros p _; simpl; auto]. Qed.

Lemma full_singleton st d ds c ls :
  gc st (d :: ds) (Node c (d :: ds) ls) -> (forall v s, In (v, s) ls -> full ds s) ->
  exists v s, ls = [(v, s)].
Proof.
  intros G A. destruct (gc_inv _ _ _ _ _ _ _ G) as [c' [ls' [E [NE [[K D] [F R]]]]]].
  injection E as <- <-. destruct ls as [|[v s] [|[v2 s2] t]]; [congruence|eauto|].
  exfalso. inversion R as [|? ? R1 _]; subst. inversion R1 as [|? ? R2 _]; subst. apply R2. simpl.
  assert (full ds s) by (eapply A; simpl; eauto). assert (full ds s2) by (eapply A; simpl; eauto).
  destruct st; simpl; auto. intros p Hp; split; auto.
Qed.

Lemma last_singleton st d c ls : gc st [d] (Node c [d] ls) -> exists v, ls = [(v, Leaf)].
Proof.
  intros G. destruct (full_singleton st d [] c ls G) as [v [s E]].
  { intros v s _ p _. simpl; auto. }
  subst. destruct (gc_sub _ _ _ _ _ _ _ _ _ _ _ G (or_introl eq_refl)) as [Gs _].
  simpl in Gs. subst. eauto.
Qed.

Lemma single_gc st d ds c v s : valid d v -> (exists x, vmem x v) -> ok st ds s ->
  gc st (d :: ds) (Node c (d :: ds) [(v, s)]).
Proof.
  intros Vv Nv Ok. simpl. repeat split; try discriminate; repeat constructor; auto; apply Ok.
Qed.

Lemma full_cube1 d : create_aux (full_cube O [d]) = Node Plain [d] [(vdom O d, Leaf)].
Proof. reflexivity. Qed.

Lemma build_spec st new a h : NoDup new -> subseq a new -> a <> [] -> ok st a h ->
  gc st new (build O new h) /\ (forall p, indom p -> (tmem new p (build O new h) <-> tmem a p h)) /\
  cls_of (build O new h) = cls_of h.
Proof.
  revert a h. induction new as [|n0 new IH]; intros a h N S NE [G T].
  - inversion S; subst; congruence.
  - destruct a as [|a0 a]; [congruence|].
    destruct (gc_inv _ _ _ _ _ _ _ G) as [c [ls [-> [NEl [[K D] [F R]]]]]].
    inversion N as [|? ? N0 N1]; subst.
    assert (Sub : subset_dims (a0 :: a) (n0 :: new) = true)
      by (apply subset_dims_spec; intros x; apply subseq_in; auto).
    cbn [build]. rewrite Sub. simpl negb. cbv iota.
    destruct (dims_eqb (a0 :: a) (n0 :: new)) eqn:Eq.
    + apply dims_eqb_eq in Eq. rewrite <- Eq. repeat split; auto; tauto.
    + destruct (Nat.eqb_spec a0 n0) as [->|Ne].
      * assert (S' : subseq a new).
        { inversion S; subst; auto. exfalso. apply N0. eapply subseq_in; [eassumption|simpl; auto]. }
        rewrite is_last_cons. destruct a as [|a1 a].
        -- simpl negb. cbv iota. destruct new as [|n1 new].
           { rewrite dims_eqb_refl in Eq. discriminate. }
           destruct (last_singleton _ _ _ _ G) as [v ->].
           assert (Okd : ok st [n1] (Node Plain [n1] [(vdom O n1, Leaf)])).
           { split.
             - apply single_gc; [apply (L_dom _ _ _ L)|apply (L_dom_ne _ _ _ L)|apply ok_leaf].
             - destruct st; simpl; auto. discriminate. }
           assert (S1 : subseq [n1] (n1 :: new)) by (repeat constructor).
           assert (NE1 : [n1] <> []) by discriminate.
           destruct (IH [n1] _ N1 S1 NE1 Okd) as [A [B C]].
           set (sub := build O (n1 :: new) (Node Plain [n1] [(vdom O n1, Leaf)])) in *. simpl map.
           destruct (gc_sub _ _ _ _ _ _ _ _ _ _ _ G (or_introl eq_refl)) as [_ [_ [Vv Nv]]].
           split; [|split; auto].
           ++ apply single_gc; auto. split; auto. simpl in C. destruct st; simpl; [auto|].
              rewrite C; discriminate.
           ++ intros p Hp. split.
              ** intros [v' [s' [[E|[]] [M _]]]]. injection E as <- <-. simpl. exists v, Leaf. auto.
              ** intros [v' [s' [[E|[]] [M _]]]]. injection E as <- <-. exists v, sub.
                 split; [simpl; auto|]. split; auto. apply B; auto. simpl. exists (vdom O n1), Leaf. auto.
        -- simpl negb. cbv iota.
           assert (NE1 : a1 :: a <> []) by discriminate.
           destruct (map_node st n0 (a1 :: a) new c ls (build O new)) as [A B]; auto.
      * assert (S' : subseq (a0 :: a) new) by (inversion S; subst; [congruence|auto]).
        destruct (IH (a0 :: a) (Node c (a0 :: a) ls) N1 S' NE (conj G T)) as [A [B C]].
        split; [|split; auto].
        -- apply single_gc; [apply (L_dom _ _ _ L)|apply (L_dom_ne _ _ _ L)|]. split; auto.
           apply (tagok_transfer st (a0 :: a) new (Node c (a0 :: a) ls)); auto.
           intros p Hp. symmetry. auto.
        -- intros p Hp. rewrite <- B by auto. split.
           ++ intros [v' [s' [[E|[]] [M T']]]]. injection E as <- <-. auto.
           ++ intros T'. eexists; eexists. split; [left; reflexivity|]. split; auto.
Qed.

(** ** Values per dimension *)
Definition all_dom (d : dim) (vs : list V) : Prop := Forall (fun v => forall x, vmem x (vdom O d) -> vmem x v) vs.

Lemma vals_head d ds (h : hc) : vals_at (d :: ds) d h = map fst (layers_of h).
Proof. simpl. rewrite Nat.eqb_refl. auto. Qed.
Lemma vals_tail d0 ds d (h : hc) : d0 <> d -> In d ds ->
  vals_at (d0 :: ds) d h = flat_map (fun p => vals_at ds d (snd p)) (layers_of h).
Proof.
  intros Ne H. apply Nat.eqb_neq in Ne. destruct ds; [contradiction|]. cbn [vals_at]. rewrite Ne. auto.
Qed.

Lemma vals_valid st ds d h v : gc st ds h -> In d ds -> In v (vals_at ds d h) -> valid d v /\ exists x, vmem x v.
Proof.
  revert h. induction ds as [|d0 ds IH]; intros h G Hd Hv; [contradiction|].
  destruct (gc_inv _ _ _ _ _ _ _ G) as [c [ls [-> [NE [[K D] [F R]]]]]]. rewrite Forall_forall in F.
  destruct (Nat.eq_dec d0 d) as [->|Ne].
  - rewrite vals_head in Hv. apply in_map_iff in Hv as [[v0 s] [<- Hin]]. apply (keyok_in _ _ _ _ _ _ K Hin).
  - destruct Hd as [->|Hd]; [congruence|]. rewrite vals_tail in Hv by auto.
    apply in_flat_map in Hv as [[v0 s] [Hin Hv]]. apply (IH s); auto. apply (F _ Hin).
Qed.

Lemma vals_nonempty st ds d h : gc st ds h -> In d ds -> vals_at ds d h <> [].
Proof.
  revert h. induction ds as [|d0 ds IH]; intros h G Hd; [contradiction|].
  destruct (gc_inv _ _ _ _ _ _ _ G) as [c [ls [-> [NE [[K D] [F R]]]]]]. rewrite Forall_forall in F.
  destruct ls as [|[v s] t]; [congruence|].
  destruct (Nat.eq_dec d0 d) as [->|Ne].
  - rewrite vals_head. simpl. discriminate.
  - destruct Hd as [->|Hd]; [congruence|]. rewrite vals_tail by auto. simpl.
    intro E. apply app_eq_nil in E as [E _]. apply (IH s); auto. apply (F (v, s)). simpl; auto.
Qed.

Lemma full_dim_spec st d h : gc st (act_of h) h -> In d (act_of h) ->
  (full_dim O h d = true <-> all_dom d (vals_at (act_of h) d h)).
Proof.
  intros G Hd. unfold full_dim. pose proof (vals_nonempty _ _ _ _ G Hd) as Hne.
  destruct (vals_at (act_of h) d h) as [|v0 vs] eqn:E; [congruence|].
  rewrite forallb_forall. unfold all_dom. rewrite Forall_forall. rewrite <- E.
  assert (Vd : valid d (vdom O d)) by apply (L_dom _ _ _ L).
  split; intros H v Hv.
  - destruct (vals_valid _ _ _ _ _ G Hd Hv) as [Vv _]. intros x Hx.
    apply (veqb_true O vmem valid L d (vdom O d) v Vd Vv (H v Hv) x). auto.
  - destruct (vals_valid _ _ _ _ _ G Hd Hv) as [Vv _]. apply (L_eqb _ _ _ L d); auto.
    intros x. split; [apply H; auto|]. intros Hx. apply (L_sub_dom _ _ _ L d v); auto.
Qed.

(** If all the values of all the dimensions are the domains, the tree is full, and conversely. *)
Lemma vals_full st ds h : NoDup ds -> gc st ds h -> (forall d, In d ds -> all_dom d (vals_at ds d h)) -> full ds h.
Proof.
  revert h. induction ds as [|d0 ds IH]; intros h N G A p Hp; [simpl; auto|].
  inversion N as [|? ? N0 N1]; subst.
  destruct (gc_inv _ _ _ _ _ _ _ G) as [c [ls [-> [NE [[K D] [F R]]]]]]. rewrite Forall_forall in F.
  destruct ls as [|[v s] t]; [congruence|]. simpl. exists v, s. split; auto. split.
  - assert (Hd : In d0 (d0 :: ds)) by (simpl; auto). specialize (A d0 Hd).
    unfold all_dom in A. rewrite vals_head in A. simpl in A. inversion A; subst. auto.
  - apply (IH s); auto.
    + apply (F (v, s)); simpl; auto.
    + intros d Hd. assert (Hd' : In d (d0 :: ds)) by (simpl; auto). specialize (A d Hd').
      unfold all_dom in *. rewrite Forall_forall in A. apply Forall_forall. intros u Hu. apply A.
      rewrite vals_tail; auto. simpl. apply in_app_iff; auto. intro; subst; auto.
Qed.

Lemma full_vals st ds h d : NoDup ds -> gc st ds h -> full ds h -> In d ds -> all_dom d (vals_at ds d h).
Proof.
  revert h. induction ds as [|d0 ds IH]; intros h N G Fu Hd; [contradiction|].
  destruct (gc_inv _ _ _ _ _ _ _ G) as [c [ls [-> [NE [[K D] [F R]]]]]]. rewrite Forall_forall in F.
  destruct (full_sub O vmem valid L _ _ _ _ _ _ N G Fu) as [v [s [-> [Ev Fs]]]].
  inversion N as [|? ? N0 N1]; subst. unfold all_dom.
  destruct (Nat.eq_dec d0 d) as [->|Ne].
  - rewrite vals_head. simpl. constructor; auto. intros x Hx. apply Ev; auto.
  - destruct Hd as [->|Hd]; [congruence|]. rewrite vals_tail by auto. simpl. rewrite app_nil_r.
    apply IH; auto. apply (F (v, s)). simpl; auto.
Qed.

(** In a strict tree, a dimension the set does not depend on has only the domain as value. *)
Lemma indep_vals ds h d : NoDup ds -> gc true ds h -> In d ds ->
  (forall p x, indom p -> vmem x (vdom O d) -> (tmem ds (upd p d x) h <-> tmem ds p h)) ->
  all_dom d (vals_at ds d h).
Proof.
  revert h. induction ds as [|d0 ds IH]; intros h N G Hd I; [contradiction|].
  destruct (gc_inv _ _ _ _ _ _ _ G) as [c [ls [-> [NE [[K D] [F R]]]]]]. rewrite Forall_forall in F.
  inversion N as [|? ? N0 N1]; subst. unfold all_dom. apply Forall_forall. intros u Hu.
  destruct (Nat.eq_dec d0 d) as [->|Ne].
  - rewrite vals_head in Hu. apply in_map_iff in Hu as [[v s] [<- Hin]]. cbn [fst snd] in *.
    destruct (keyok_in _ _ _ _ _ _ K Hin) as [Vv [y Hy]].
    assert (Dy : vmem y (vdom O d)) by (eapply (L_sub_dom _ _ _ L); eauto).
    destruct (F _ Hin) as [Gs _]. cbn [fst snd] in Gs.
    destruct (gc_nonempty O vmem valid L true ds s N1 Gs) as [q [Hq Tq]].
    intros x Hx.
    (* the sections at x and y coincide *)
    assert (Sec : forall p, indom p -> (tmem (d :: ds) (upd p d x) (Node c (d :: ds) ls) <-> tmem ds p s)).
    { intros p Hp. pose proof (upd_indom O vmem p d y Hp Dy) as Hpy.
      pose proof (I p x Hp Hx) as I1. pose proof (I p y Hp Dy) as I2.
      rewrite I1, <- I2. rewrite (node_section vmem d ds c _ ls (upd p d y) v s); auto.
      - apply tmem_upd; auto.
      - rewrite upd_same; auto. }
    assert (T : tmem (d :: ds) (upd q d x) (Node c (d :: ds) ls)) by (apply Sec; auto).
    destruct T as [v' [s' [Hin' [M' _]]]]. rewrite upd_same in M'.
    assert (E : (v, s) = (v', s')).
    { eapply (rel_unique O vmem valid true d ds); [exact G| | |]; auto. simpl. intros p Hp.
      rewrite <- (Sec p Hp). rewrite (node_section vmem d ds c _ ls (upd p d x) v' s'); auto.
      - apply tmem_upd; auto.
      - rewrite upd_same; auto. }
    injection E as -> ->. auto.
  - destruct Hd as [->|Hd]; [congruence|]. rewrite vals_tail in Hu by auto.
    apply in_flat_map in Hu as [[v s] [Hin Hu]]. cbn [fst snd] in *. destruct (F _ Hin) as [Gs _]. cbn [fst snd] in Gs.
    destruct (keyok_in _ _ _ _ _ _ K Hin) as [Vv [y Hy]].
    assert (Dy : vmem y (vdom O d0)) by (eapply (L_sub_dom _ _ _ L); eauto).
    assert (A : all_dom d (vals_at ds d s)).
    { apply IH; auto. intros p x Hp Hx.
      pose proof (I (upd p d0 y) x (upd_indom O vmem p d0 y Hp Dy) Hx) as I1.
      rewrite !(node_section vmem d0 ds c (d0 :: ds) ls) with (v := v) (s := s) in I1; auto.
      - rewrite (tmem_upd vmem ds p d0 y s) in I1 by auto. rewrite <- I1.
        apply tmem_ext. intros e He. unfold upd. destruct (Nat.eqb e d); auto.
        destruct (Nat.eqb_spec e d0); subst; auto. contradiction.
      - rewrite upd_same; auto.
      - rewrite upd_other, upd_same; auto. }
    unfold all_dom in A. rewrite Forall_forall in A. auto.
Qed.

(** ** Removing dimensions *)
Lemma remove_some_spec st ds new h : NoDup ds -> subseq new ds -> new <> [] -> gc st ds h ->
  (forall d, In d ds -> ~ In d new -> all_dom d (vals_at ds d h)) ->
  gc st new (remove_some O ds new h) /\
  (forall p, indom p -> (tmem new p (remove_some O ds new h) <-> tmem ds p h)) /\
  cls_of (remove_some O ds new h) = cls_of h /\
  (forall d v, In d new -> In v (vals_at new d (remove_some O ds new h)) <-> In v (vals_at ds d h)).
Proof.
  revert new h. induction ds as [|d0 ds IH]; intros new h N S NE G A.
  - inversion S; subst. congruence.
  - inversion N as [|? ? N0 N1]; subst.
    destruct (gc_inv _ _ _ _ _ _ _ G) as [c [ls [-> [NEl [[K D] [F R]]]]]].
    assert (F' := F). rewrite Forall_forall in F'.
    assert (Sub : subset_dims new (d0 :: ds) = true)
      by (apply subset_dims_spec; intros x; apply subseq_in; auto).
    cbn [remove_some]. rewrite Sub. simpl negb. cbv iota.
    destruct new as [|n0 new]; [congruence|].
    destruct (dims_eqb (d0 :: ds) (n0 :: new)) eqn:Eq.
    { apply dims_eqb_eq in Eq. rewrite <- Eq. repeat split; auto; tauto. }
    destruct (Nat.eqb_spec d0 n0) as [->|Ne].
    + assert (S' : subseq new ds).
      { inversion S; subst; auto. exfalso. apply N0. eapply subseq_in; [eassumption|simpl; auto]. }
      assert (As : forall v s d, In (v, s) ls -> In d ds -> ~ In d new -> all_dom d (vals_at ds d s)).
      { intros v s d Hin Hd Hn. assert (Nd : n0 <> d) by (intro; subst; contradiction).
        assert (Hd' : In d (n0 :: ds)) by (simpl; auto).
        assert (Hn' : ~ In d (n0 :: new)) by (simpl; tauto).
        specialize (A d Hd' Hn'). unfold all_dom in *. rewrite vals_tail in A by auto.
        rewrite Forall_forall in *. intros u Hu. apply A. apply in_flat_map. exists (v, s). auto. }
      destruct new as [|n1 new].
      * assert (Fs : forall v s, In (v, s) ls -> full ds s).
        { intros v s Hin. apply (vals_full st); auto. apply (F' _ Hin).
          intros d Hd. apply (As v s); auto. }
        destruct (full_singleton _ _ _ _ _ G Fs) as [v [s ->]]. simpl map.
        destruct (gc_sub _ _ _ _ _ _ _ _ _ _ _ G (or_introl eq_refl)) as [_ [_ [Vv Nv]]].
        split; [|split; [|split; auto]].
        -- apply single_gc; auto. apply ok_leaf.
        -- intros p Hp. simpl. split.
           ++ intros [v' [s' [[E|[]] [M _]]]]. injection E as <- <-. exists v, s.
              repeat split; auto. apply (Fs v s); simpl; auto.
           ++ intros [v' [s' [[E|[]] [M _]]]]. injection E as <- <-. exists v, Leaf. auto.
        -- intros d u [<-|[]]. rewrite !vals_head. simpl. tauto.
      * assert (NE1 : n1 :: new <> []) by discriminate.
        assert (IHs : forall v s, In (v, s) ls -> _) by
          (intros v s Hin; exact (IH (n1 :: new) s N1 S' NE1 (proj1 (F' _ Hin)) (fun d Hd Hn => As v s d Hin Hd Hn))).
        set (r := remove_some O ds (n1 :: new)) in *.
        (* rebuild the node *)
        assert (Gm : gc st (n0 :: n1 :: new) (Node c (n0 :: n1 :: new) (map (fun p => (fst p, r (snd p))) ls))).
        { simpl. repeat split.
          - destruct ls; simpl; congruence.
          - apply Forall_forall. intros e He. apply in_map_iff in He as [[v s] [<- Hin]]. simpl.
            apply (keyok_in _ _ _ _ _ _ K Hin).
          - apply (FOP_map disj); auto.
          - apply Forall_forall. intros e He. apply in_map_iff in He as [[v s] [<- Hin]].
            destruct (IHs v s Hin) as [B1 [B2 [B3 B4]]]. split; auto. simpl snd.
            apply (tagok_transfer st ds (n1 :: new) s); auto.
            + intros p Hp. symmetry. auto.
            + apply (F' _ Hin).
          - apply (FOP_map (fun p q => ~ rel st ds (snd p) (snd q))); auto.
            intros [v s] [v' s'] Hin Hin' Nr Rl. apply Nr. simpl snd in *.
            apply (rel_transfer st ds (n1 :: new) s s' (r s) (r s')); auto.
            + intros p Hp. symmetry. apply (IHs v s Hin); auto.
            + intros p Hp. symmetry. apply (IHs v' s' Hin'); auto. }
        split; [exact Gm|]. split; [|split; auto].
        -- intros p Hp. cbn [HyperFacts.tmem]. split.
           ++ intros [v [t [Hin [M T]]]]. apply in_map_iff in Hin as [[v0 s] [E Hin]]. injection E as -> <-.
              exists v, s. repeat split; auto. apply (IHs v s Hin); auto.
           ++ intros [v [s [Hin [M T]]]]. exists v, (r s). repeat split; auto.
              ** apply in_map_iff. exists (v, s). auto.
              ** apply (IHs v s Hin); auto.
        -- intros d u Hd. destruct (Nat.eq_dec n0 d) as [<-|Nd].
           ++ rewrite !vals_head. cbn [layers_of]. rewrite map_map. cbn [fst]. tauto.
           ++ destruct Hd as [E|Hd]; [congruence|].
              rewrite !vals_tail by (auto; eapply subseq_in; eauto). cbn [layers_of].
              rewrite !in_flat_map. split.
              ** intros [e [He Hu]]. apply in_map_iff in He as [[v s] [<- Hin]].
                 exists (v, s). split; auto. simpl snd in *. apply (IHs v s Hin); auto.
              ** intros [[v s] [Hin Hu]]. exists (v, r s). split.
                 --- apply in_map_iff. exists (v, s). auto.
                 --- simpl snd in *. apply (IHs v s Hin); auto.
    + assert (S' : subseq (n0 :: new) ds) by (inversion S; subst; [congruence|auto]).
      assert (Hn : ~ In d0 (n0 :: new)) by (intro Hx; apply N0; eapply subseq_in; eauto).
      assert (A0 := A d0 (or_introl eq_refl) Hn). unfold all_dom in A0. rewrite vals_head in A0.
      cbn [layers_of] in A0.
      (* a single layer, covering the domain *)
      assert (Sg : exists v s, ls = [(v, s)]).
      { destruct ls as [|[v s] [|[v2 s2] t]]; [congruence|eauto|]. exfalso.
        simpl in A0. inversion A0 as [|? ? A1 A2]; subst. inversion A2 as [|? ? A3 A4]; subst.
        inversion D as [|? ? D1 D2]; subst. inversion D1 as [|? ? D3 D4]; subst.
        destruct (L_dom_ne _ _ _ L d0) as [x Hx]. apply (D3 x); simpl; auto. }
      destruct Sg as [v [s ->]]. simpl in A0. inversion A0 as [|? ? A1 _]; subst.
      cbn [flat_map]. rewrite app_nil_r. simpl snd.
      destruct (gc_sub _ _ _ _ _ _ _ _ _ _ _ G (or_introl eq_refl)) as [Gs [_ [Vv Nv]]].
      destruct ds as [|d1 ds']; [inversion S'|].
      destruct (gc_inv _ _ _ _ _ _ _ Gs) as [cs [lss [-> [NEs [Lk _]]]]]. cbn [layers_of].
      rewrite (dict_of_id O vmem valid L d1) by auto.
      assert (Gs' : gc st (d1 :: ds') (Node c (d1 :: ds') lss)) by (eapply gc_retag; eauto).
      assert (Ev : forall d, In d (d1 :: ds') ->
        vals_at (d0 :: d1 :: ds') d (Node c (d0 :: d1 :: ds') [(v, Node cs (d1 :: ds') lss)]) =
        vals_at (d1 :: ds') d (Node c (d1 :: ds') lss)).
      { intros d Hd. assert (Nd : d0 <> d) by (intro; subst; auto).
        rewrite vals_tail by auto. cbn [layers_of flat_map snd]. rewrite app_nil_r.
        destruct ds'; reflexivity. }
      assert (A' : forall d, In d (d1 :: ds') -> ~ In d (n0 :: new) ->
                   all_dom d (vals_at (d1 :: ds') d (Node c (d1 :: ds') lss))).
      { intros d Hd Hnd. rewrite <- Ev by auto. apply A; auto. right; auto. }
      destruct (IH (n0 :: new) (Node c (d1 :: ds') lss) N1 S' NE Gs' A') as [B1 [B2 [B3 B4]]].
      split; auto. split; [|split; auto].
      * intros p Hp. rewrite B2 by auto.
        rewrite (node_section vmem d0 (d1 :: ds') c _ [(v, Node cs (d1 :: ds') lss)] p v (Node cs (d1 :: ds') lss)).
        -- apply tmem_retag.
        -- exact D.
        -- simpl; auto.
        -- apply A1. apply Hp.
      * intros d u Hd. rewrite B4 by auto. rewrite Ev; [tauto|]. eapply subseq_in; eauto.
Qed.

(** ** Objects *)
Definition reduced (h : hc) : Prop := forall d, In d (act_of h) -> full_dim O h d = false.

(** A well-formed non-trivial object. *)
Definition proper st (all : list dim) (h : hc) : Prop :=
  act_of h <> [] /\ subseq (act_of h) all /\ gc st (act_of h) h /\ reduced h.

Definition denot := denot vmem.

Lemma gc_node st d ds h : gc st (d :: ds) h -> act_of h = d :: ds.
Proof. intros G. destruct (gc_inv _ _ _ _ _ _ _ G) as [c [ls [-> _]]]. auto. Qed.

Lemma proper_not_full st all h : NoDup all -> proper st all h -> ~ full (act_of h) h.
Proof.
  intros N [NE [S [G R]]] F. destruct (act_of h) as [|d ds] eqn:E; [congruence|].
  assert (Nd : NoDup (d :: ds)) by (eapply subseq_nodup; eauto).
  assert (Hd : In d (d :: ds)) by (simpl; auto).
  assert (Full : full_dim O h d = true).
  { apply (full_dim_spec st); rewrite E; auto. apply (full_vals st); auto. }
  rewrite (R d) in Full; [discriminate|]. rewrite E; auto.
Qed.

Lemma filter_true {A} (f : A -> bool) l : (forall x, In x l -> f x = true) -> filter f l = l.
Proof.
  induction l; simpl; intros H; auto. rewrite H by auto. f_equal. auto.
Qed.

Lemma by_order_self all a : NoDup all -> subseq a all -> by_order all a = a.
Proof.
  intros N S. apply (subseq_antisym all); auto.
  - apply by_order_subseq.
  - intro d. rewrite by_order_in. split; [tauto|]. intro H. split; auto. eapply subseq_in; eauto.
Qed.

Lemma reduce_active_node all c d ds (ls : list entry) : ls <> [] ->
  reduce_active O all (Node c (d :: ds) ls) =
  match by_order all (filter (fun d0 => negb (full_dim O (Node c (d :: ds) ls) d0)) (d :: ds)) with
  | [] => hall c
  | n => remove_some O (d :: ds) n (Node c (d :: ds) ls)
  end.
Proof.
  intros NE. destruct ls as [|e t]; [congruence|]. unfold reduce_active. cbv zeta.
  destruct (by_order all _); reflexivity.
Qed.

Lemma reduce_active_spec st all h : NoDup all -> act_of h <> [] -> subseq (act_of h) all -> gc st (act_of h) h ->
  let r := reduce_active O all h in
  cls_of r = cls_of h /\
  (forall p, indom p -> (denot r p <-> denot h p)) /\
  (r = hall (cls_of h) \/ proper st all r).
Proof.
  intros N NE S G r. destruct (act_of h) as [|d ds] eqn:E; [congruence|].
  destruct (gc_inv _ _ _ _ _ _ _ G) as [c [ls [-> [NEl _]]]].
  assert (Nd : NoDup (d :: ds)) by (eapply subseq_nodup; eauto).
  unfold r. rewrite reduce_active_node by auto. clear r.
  set (h := Node c (d :: ds) ls) in *.
  set (keep := filter (fun d0 => negb (full_dim O h d0)) (d :: ds)).
  assert (Sk : subseq keep (d :: ds)) by apply subseq_filter.
  assert (Ek : by_order all keep = keep).
  { apply by_order_self; auto. eapply subseq_trans; eauto. }
  rewrite Ek.
  assert (A : forall e, In e (d :: ds) -> ~ In e keep -> all_dom e (vals_at (d :: ds) e h)).
  { intros e He Hn. apply (full_dim_spec st e h G He).
    destruct (full_dim O h e) eqn:Ef; auto. exfalso. apply Hn. unfold keep. apply filter_In.
    rewrite Ef. auto. }
  destruct keep as [|k0 kt] eqn:Ekk.
  - split; auto. split; auto. intros p Hp. unfold denot, HyperFacts.denot. simpl.
    split; auto. intros _. apply (vals_full st (d :: ds) h); auto.
  - rewrite <- Ekk in *. assert (NEk : keep <> []) by (rewrite Ekk; discriminate).
    destruct (remove_some_spec st (d :: ds) keep h Nd Sk NEk G A) as [B1 [B2 [B3 B4]]].
    assert (Ea : act_of (remove_some O (d :: ds) keep h) = keep).
    { rewrite Ekk in B1 at 1. rewrite (gc_node _ _ _ _ B1). auto. }
    split; auto. split.
    + intros p Hp. unfold denot, HyperFacts.denot. rewrite Ea. apply B2; auto.
    + right. unfold proper. rewrite Ea. repeat split; auto.
      * eapply subseq_trans; eauto.
      * intros e He. rewrite Ea in He.
        destruct (full_dim O (remove_some O (d :: ds) keep h) e) eqn:Ef; auto. exfalso.
        apply (full_dim_spec st) in Ef; rewrite ?Ea in *; auto.
        assert (Fh : full_dim O h e = true).
        { apply (full_dim_spec st); auto. eapply subseq_in; eauto. unfold all_dom in *.
          rewrite Forall_forall in *. intros v Hv. apply Ef. apply B4; auto. }
        unfold keep in He. apply filter_In in He as [_ He]. rewrite Fh in He. discriminate.
Qed.
End DimFacts.
