(** * contained_in on hyper-cube objects is exactly set inclusion. *)
From Coq Require Import List Bool Arith Lia.
Import ListNotations.
From Verif Require Import HyperModel HyperFacts HyperOps HyperDims HyperTop.

Section ContainFacts.
Context {V P : Type} (O : vops V P) (vmem : P -> V -> Prop) (valid : dim -> V -> Prop)
        (L : vlaws O vmem valid).
Notation hc := (hc V).
Notation entry := (V * hc)%type.
Notation tmem := (tmem vmem).
Notation indom := (indom O vmem).
Notation full := (full O vmem).
Notation tagok := (tagok O vmem).
Notation lok := (lok vmem valid).
Notation gc := (gc O vmem valid).
Notation obj := (obj O vmem valid).
Notation covers := (covers vmem).
Notation denot := (HyperFacts.denot vmem).

Definition incl_on (a1 a2 : list dim) (h1 h2 : hc) : Prop :=
  forall p, indom p -> tmem a1 p h1 -> tmem a2 p h2.

Lemma is_entire_spec st a h : NoDup a -> a <> [] -> gc st a h -> tagok st a h -> (is_entire O h = true <-> full a h).
Proof.
  intros N NE G T. unfold is_entire.
  assert (Ea : act_of h = a) by (destruct a; [congruence|]; exact (gc_node _ _ _ _ _ _ _ G)).
  rewrite Ea. destruct (full_cube_gc O vmem valid L st a N NE) as [Gf Ff]. split.
  - intros E p Hp. apply (eqb_sound O vmem valid L st a _ h p Gf G E). auto.
  - intro F. apply (eqb_full_cube O vmem valid L st); auto.
Qed.

Lemma cover_loop_spec d okf cur l : valid d cur -> (exists x, vmem x cur) -> lok d l ->
  (cover_loop O okf cur l = Some true <->
   (forall v2 s2, In (v2, s2) l -> (exists x, vmem x cur /\ vmem x v2) -> okf s2 = true) /\
   (forall x, vmem x cur -> covers l x)).
Proof.
  revert cur. induction l as [|[v2 s2] t IH]; intros cur Vc [x0 Hx0] [K D]; cbn [cover_loop].
  - split; [discriminate|]. intros [_ H]. destruct (H x0 Hx0) as [e [[] _]].
  - inversion K as [|? ? [Kv Kn] Kt]; subst. inversion D as [|? ? Dv Dt]; subst. cbn [fst] in *.
    assert (Vand : valid d (vand O cur v2)) by (apply (L_and_valid _ _ _ L); auto).
    assert (Lt : lok d t) by (split; auto).
    assert (Dt' : forall v3 s3 x, In (v3, s3) t -> vmem x v2 -> vmem x v3 -> False).
    { intros v3 s3 x H. rewrite Forall_forall in Dv. apply (Dv _ H x). }
    destruct (vbool O (vand O cur v2)) eqn:Eb.
    + apply (L_bool _ _ _ L d) in Eb as [y Hy]; auto. apply (L_and _ _ _ L d) in Hy; auto.
      destruct (okf s2) eqn:Eo; cbn [negb].
      2:{ split; [discriminate|]. intros [H _]. assert (okf s2 = true) by (apply (H v2 s2); [simpl; auto|exists y; tauto]). congruence. }
      assert (Vs : valid d (vsub O cur (vand O cur v2))) by (apply (L_sub_valid _ _ _ L); auto).
      assert (Ms : forall x, vmem x (vsub O cur (vand O cur v2)) <-> vmem x cur /\ ~ vmem x v2).
      { intro x. rewrite (L_sub _ _ _ L d), (L_and _ _ _ L d) by auto.
        destruct (vmem_dec O vmem valid L d v2 x Kv); tauto. }
      destruct (vbool O (vsub O cur (vand O cur v2))) eqn:Er.
      * apply (L_bool _ _ _ L d) in Er; auto. rewrite (IH _ Vs Er Lt). split.
        -- intros [A B]. split.
           ++ intros v3 s3 [E|Hin] [x [H1 H2]]; [injection E as <- <-; auto|].
              apply (A v3 s3 Hin). exists x. split; auto. apply Ms. split; auto. intro H3. eapply Dt'; eauto.
           ++ intros x Hx. destruct (vmem_dec O vmem valid L d v2 x Kv) as [H|H].
              ** exists (v2, s2). simpl; auto.
              ** destruct (B x) as [e [He1 He2]]; [apply Ms; auto|]. exists e. simpl; auto.
        -- intros [A B]. split.
           ++ intros v3 s3 Hin [x [H1 H2]]. apply (A v3 s3); [simpl; auto|]. exists x. split; auto. apply Ms; auto.
           ++ intros x Hx. apply Ms in Hx as [H1 H2]. destruct (B x H1) as [e [[<-|He1] He2]]; [contradiction|].
              exists e. auto.
      * assert (Hn : forall x, ~ vmem x (vsub O cur (vand O cur v2))) by (apply (vbool_false O vmem valid L d); auto).
        assert (Sub : forall x, vmem x cur -> vmem x v2).
        { intros x Hx. destruct (vmem_dec O vmem valid L d v2 x Kv); auto. exfalso. apply (Hn x). apply Ms; auto. }
        split; auto. intros _. split.
        -- intros v3 s3 [E|Hin] [x [H1 H2]]; [injection E as <- <-; auto|]. exfalso. eapply Dt'; eauto.
        -- intros x Hx. exists (v2, s2). simpl; auto.
    + assert (Hn : forall x, ~ vmem x (vand O cur v2)) by (apply (vbool_false O vmem valid L d); auto).
      assert (Nc : forall x, vmem x cur -> vmem x v2 -> False).
      { intros x H1 H2. apply (Hn x). apply (L_and _ _ _ L d); auto. }
      rewrite (IH cur Vc (ex_intro _ x0 Hx0) Lt). split; intros [A B]; split.
      * intros v3 s3 [E|Hin] [x [H1 H2]]; [injection E as <- <-; exfalso; eauto|]. apply (A v3 s3 Hin); eauto.
      * intros x Hx. destruct (B x Hx) as [e [H1 H2]]. exists e. simpl; auto.
      * intros v3 s3 Hin H. apply (A v3 s3); simpl; auto.
      * intros x Hx. destruct (B x Hx) as [e [[<-|H1] H2]]; [exfalso; eauto|]. exists e. auto.
Qed.

Lemma allM_spec (l : list entry) (f : entry -> option bool) (Q : entry -> Prop) :
  (forall e, In e l -> exists b, f e = Some b /\ (b = true <-> Q e)) ->
  exists b, allM (map f l) = Some b /\ (b = true <-> forall e, In e l -> Q e).
Proof.
  induction l as [|e t IH]; intros H; cbn [map allM].
  - exists true. split; auto. split; auto. intros _ e [].
  - destruct (H e (or_introl eq_refl)) as [b1 [E1 Q1]].
    destruct IH as [b2 [E2 Q2]]; [intros e' He'; apply H; simpl; auto|].
    rewrite E1, E2. exists (b1 && b2). split; auto. rewrite andb_true_iff, Q1, Q2. split.
    + intros [A B] e' [<-|He']; auto.
    + intros A. split; [apply A; simpl; auto|]. intros e' He'. apply A; simpl; auto.
Qed.

(** The loop of case 2 (b). *)
Fixpoint cover2 (d : dim) (f : hc -> option bool) (l : list entry) (acc : option V) : option bool :=
  match l with
  | [] => match acc with Some w => Some (veqb O w (vdom O d)) | None => None end
  | (v, s) :: t =>
    match f s with
    | Some true => cover2 d f t (Some (match acc with None => v | Some w => vor O w v end))
    | Some false => Some false
    | None => None
    end
  end.

Lemma cover2_spec d f (Q : hc -> Prop) l acc :
  (forall e, In e l -> valid d (fst e)) ->
  (forall e, In e l -> exists b, f (snd e) = Some b /\ (b = true <-> Q (snd e))) ->
  match acc with Some w => valid d w | None => l <> [] end ->
  exists b, cover2 d f l acc = Some b /\
    (b = true <-> (forall e, In e l -> Q (snd e)) /\
                  (forall x, vmem x (vdom O d) -> match acc with Some w => vmem x w | None => False end \/ covers l x)).
Proof.
  revert acc. induction l as [|[v s] t IH]; intros acc Hv Hf Ha; cbn [cover2].
  - destruct acc as [w|]; [|congruence]. eexists. split; [reflexivity|].
    rewrite (L_eqb _ _ _ L d) by (auto; apply (L_dom _ _ _ L)). split.
    + intros E. split; [intros e []|]. intros x Hx. left. apply E; auto.
    + intros [_ H] x. split; [apply (L_sub_dom _ _ _ L); auto|]. intro Hx.
      destruct (H x Hx) as [?|[e [[] _]]]; auto.
  - destruct (Hf (v, s) (or_introl eq_refl)) as [b [E1 Q1]]. cbn [snd] in *. rewrite E1.
    assert (Vv : valid d v) by (apply (Hv (v, s)); simpl; auto).
    destruct b.
    + destruct (IH (Some (match acc with None => v | Some w => vor O w v end))) as [b [E2 Q2]].
      * intros e He; apply Hv; simpl; auto.
      * intros e He; apply Hf; simpl; auto.
      * destruct acc as [w|]; auto. apply (L_or_valid _ _ _ L); auto.
      * exists b. split; auto. rewrite Q2. clear Q2 E2 IH.
        assert (M : forall x, vmem x (match acc with None => v | Some w => vor O w v end) <->
                     match acc with Some w => vmem x w | None => False end \/ vmem x v).
        { intro x. destruct acc as [w|]; [apply (L_or _ _ _ L d); auto|tauto]. }
        split; intros [A B]; split.
        -- intros e [<-|He]; auto. apply Q1; auto.
        -- intros x Hx. destruct (B x Hx) as [H|[e [H1 H2]]].
           ++ apply M in H as [H|H]; auto. right. exists (v, s). simpl; auto.
           ++ right. exists e. simpl; auto.
        -- intros e He. apply A. simpl; auto.
        -- intros x Hx. destruct (B x Hx) as [H|[e [[<-|H1] H2]]].
           ++ left. apply M; auto.
           ++ left. apply M; auto.
           ++ right. exists e; auto.
    + exists false. split; auto. split; [discriminate|]. intros [A _].
      apply Q1. apply (A (v, s)). simpl; auto.
Qed.

Lemma subseq_cons_inv (d : dim) a ds : subseq a (d :: ds) -> NoDup (d :: ds) ->
  (In d a /\ exists a', a = d :: a' /\ subseq a' ds) \/ (~ In d a /\ subseq a ds).
Proof.
  intros S N. inversion N as [|? ? N1 N2]; subst. inversion S; subst.
  - right. split; [intros []|constructor].
  - left. split; [simpl; auto|]. eauto.
  - right. split; auto. intro H. apply N1. eapply subseq_in; eauto.
Qed.

Lemma contained_aux_spec st ds : forall a1 a2 h1 h2, NoDup ds -> a1 <> [] -> a2 <> [] ->
  subseq a1 ds -> subseq a2 ds -> (forall d, In d ds -> In d a1 \/ In d a2) ->
  gc st a1 h1 -> gc st a2 h2 -> tagok st a2 h2 ->
  exists b, contained_aux O ds h1 h2 = Some b /\ (b = true <-> incl_on a1 a2 h1 h2).
Proof.
  induction ds as [|d ds IH]; intros a1 a2 h1 h2 N NE1 NE2 S1 S2 C G1 G2 T2.
  { inversion S1; subst. congruence. }
  assert (Ea1 : act_of h1 = a1) by (destruct a1; [congruence|]; exact (gc_node _ _ _ _ _ _ _ G1)).
  assert (Ea2 : act_of h2 = a2) by (destruct a2; [congruence|]; exact (gc_node _ _ _ _ _ _ _ G2)).
  assert (N1 : NoDup a1) by (eapply subseq_nodup; eauto).
  assert (N2 : NoDup a2) by (eapply subseq_nodup; eauto).
  destruct (indom_ex O vmem valid L) as [p0 Hp0].
  destruct (gc_nonempty O vmem valid L st a1 h1 N1 G1) as [q1 [Hq1 Mq1]].
  cbn [contained_aux]. rewrite Ea1, Ea2.
  assert (Nd : ~ In d ds) by (inversion N; auto). assert (Nds : NoDup ds) by (inversion N; auto). subst a1 a2. set (a1 := act_of h1) in *. set (a2 := act_of h2) in *.
  destruct (subseq_cons_inv d a2 ds S2 N) as [[I2 [a2' [E2 S2']]]|[I2 S2']].
  - rewrite (proj2 (mem_dim_In d a2) I2). cbn [negb].
    clearbody a1 a2. subst a2.
    destruct (gc_inv _ _ _ _ _ _ _ G2) as [c2 [l2 [-> [NEl2 [[K2 D2] [F2 _]]]]]].
    assert (Nd2 : ~ In d a2') by (inversion N2; auto).
    destruct (subseq_cons_inv d a1 ds S1 N) as [[I1 [a1' [E1 S1']]]|[I1 S1']].
    + (* case 3 *)
      rewrite (proj2 (mem_dim_In d a1) I1). cbn [negb]. subst a1.
      destruct (gc_inv _ _ _ _ _ _ _ G1) as [c1 [l1 [-> [NEl1 [[K1 D1] [F1 _]]]]]].
      assert (Nd1 : ~ In d a1') by (inversion N1; auto).
      assert (NA1 : NoDup a1') by (inversion N1; auto).
      assert (NA2 : NoDup a2') by (inversion N2; auto).
      rewrite !is_last_cons.
      set (okf := fun (s1 s2 : hc) =>
           if negb (match a1' with [] => true | _ => false end) && negb (match a2' with [] => true | _ => false end)
           then match contained_aux O ds s1 s2 with Some true => true | _ => false end
           else if (match a1' with [] => true | _ => false end) && negb (match a2' with [] => true | _ => false end)
                then is_entire O s2 else true).
      assert (Hok : forall v1 s1 v2 s2, In (v1, s1) l1 -> In (v2, s2) l2 ->
                (okf s1 s2 = true <-> incl_on a1' a2' s1 s2)).
      { intros v1 s1 v2 s2 H1 H2.
        destruct (gc_sub _ _ _ _ _ _ _ _ _ _ _ G1 H1) as [Gs1 [Ts1 _]].
        destruct (gc_sub _ _ _ _ _ _ _ _ _ _ _ G2 H2) as [Gs2 [Ts2 _]].
        unfold okf. destruct a1' as [|e1 b1]; destruct a2' as [|e2 b2]; cbn [negb andb].
        - split; auto. intros _ p Hp _. exact I.
        - rewrite (is_entire_spec st (e2 :: b2)) by (auto; discriminate). split.
          + intros F p Hp _. apply F; auto.
          + intros F p Hp. apply F; auto. exact I.
        - split; auto. intros _ p Hp _. exact I.
        - destruct (IH (e1 :: b1) (e2 :: b2) s1 s2) as [b [Eb Qb]]; auto; try discriminate.
          + intros x Hx. assert (x <> d) by (intros ->; contradiction).
            destruct (C x) as [[E|H']|[E|H']]; simpl; auto; try congruence.
          + rewrite Eb. destruct b; [tauto|]. split; [discriminate|]. intro H. apply Qb in H. discriminate. }
      assert (Main : incl_on (d :: a1') (d :: a2') (Node c1 (d :: a1') l1) (Node c2 (d :: a2') l2) <->
                (forall v1 s1, In (v1, s1) l1 ->
                   (forall v2 s2, In (v2, s2) l2 -> (exists x, vmem x v1 /\ vmem x v2) -> incl_on a1' a2' s1 s2) /\
                   (forall x, vmem x v1 -> covers l2 x))).
      { split.
        - intros H v1 s1 H1. destruct (gc_sub _ _ _ _ _ _ _ _ _ _ _ G1 H1) as [Gs1 [Ts1 [Vv1 _]]]. split.
          + intros v2 s2 H2 [x [Hx1 Hx2]] p Hp Mp.
            assert (T : tmem (d :: a2') (upd p d x) (Node c2 (d :: a2') l2)).
            { apply H; [apply upd_indom; auto; eapply (L_sub_dom _ _ _ L); eauto|].
              exists v1, s1. rewrite upd_same. split; auto. split; auto. apply tmem_upd; auto. }
            apply (node_section vmem d a2' c2 (d :: a2') l2 (upd p d x) v2 s2) in T; auto.
            * apply tmem_upd in T; auto.
            * rewrite upd_same; auto.
          + intros x Hx. destruct (gc_nonempty O vmem valid L st a1' s1 NA1 Gs1) as [q [Hq Mq]].
            assert (T : tmem (d :: a2') (upd q d x) (Node c2 (d :: a2') l2)).
            { apply H; [apply upd_indom; auto; eapply (L_sub_dom _ _ _ L); eauto|].
              exists v1, s1. rewrite upd_same. split; auto. split; auto. apply tmem_upd; auto. }
            destruct T as [v2 [s2 [H2 [Hx2 _]]]]. rewrite upd_same in Hx2. exists (v2, s2). auto.
        - intros H p Hp [v1 [s1 [H1 [Hx1 M1]]]]. destruct (H v1 s1 H1) as [A B].
          destruct (B (p d) Hx1) as [[v2 s2] [H2 Hx2]]. exists v2, s2. split; auto. split; auto.
          apply (A v2 s2 H2); eauto. }
      assert (Loop : forall v1 s1, In (v1, s1) l1 ->
                (cover_loop O (okf s1) v1 l2 = Some true <->
                 (forall v2 s2, In (v2, s2) l2 -> (exists x, vmem x v1 /\ vmem x v2) -> incl_on a1' a2' s1 s2) /\
                 (forall x, vmem x v1 -> covers l2 x))).
      { intros v1 s1 H1. destruct (gc_sub _ _ _ _ _ _ _ _ _ _ _ G1 H1) as [_ [_ [Vv1 Nv1]]].
        rewrite (cover_loop_spec d) by (auto; split; auto).
        split; intros [A B]; split; auto; intros v2 s2 H2 Hc.
        - apply (Hok v1 s1 v2 s2); auto. eapply A; eauto.
        - apply (Hok v1 s1 v2 s2); auto. eapply A; eauto. }
      destruct (match a1' with [] => true | _ => false end && match a2' with [] => true | _ => false end) eqn:Elast.
      * destruct a1' as [|? ?]; [|discriminate]. destruct a2' as [|? ?]; [|discriminate].
        destruct (last_singleton O vmem valid st d c1 l1 G1) as [v1 ->].
        destruct (last_singleton O vmem valid st d c2 l2 G2) as [v2 ->].
        cbn [last_value]. eexists. split; [reflexivity|].
        inversion K1 as [|? ? [Vv1 _] _]; subst. inversion K2 as [|? ? [Vv2 _] _]; subst. cbn [fst] in *.
        rewrite (L_cont _ _ _ L d) by auto. rewrite Main. split.
        -- intros H v s [E|[]]. injection E as <- <-. split; [intros ? ? _ _ p _ _; exact I|].
           intros x Hx. exists (v2, Leaf). simpl; auto.
        -- intros H x Hx. destruct (H v1 Leaf (or_introl eq_refl)) as [_ B].
           destruct (B x Hx) as [e [[<-|[]] He]]. auto.
      * eexists. split; [reflexivity|]. rewrite Main. cbn [layers_of].
        rewrite forallb_forall. split.
        -- intros H v1 s1 H1. apply Loop; auto.
           specialize (H (cover_loop O (okf s1) v1 l2)).
           destruct (cover_loop O (okf s1) v1 l2) as [[|]|] eqn:E; auto; exfalso.
           ++ assert (false = true); [|discriminate]. apply H. apply in_map_iff. exists (v1, s1).
              split; auto.
           ++ assert (false = true); [|discriminate]. apply H. apply in_map_iff. exists (v1, s1).
              split; auto.
        -- intros H r Hr. apply in_map_iff in Hr as [[v1 s1] [<- H1]]. cbn [fst snd].
           specialize (H v1 s1 H1). apply (Loop v1 s1 H1) in H. unfold okf in H. rewrite H. auto.
    + (* case 2 *)
      rewrite (proj2 (mem_dim_false d a1) I1). cbn [negb]. rewrite is_last_cons.
      assert (NE1' : a1 <> []) by auto.
      destruct a2' as [|e2 b2].
      * eexists. split; [reflexivity|].
        rewrite (is_entire_spec st [d]) by (auto; discriminate). split.
        -- intros F p Hp _. apply F; auto.
        -- intros H p Hp. assert (T : tmem [d] (upd q1 d (p d)) (Node c2 [d] l2)).
           { apply H; [apply upd_indom; auto|]. apply tmem_upd; auto. }
           apply (tmem_ext vmem [d] (upd q1 d (p d)) p) in T; auto. intros x [<-|[]]. apply upd_same.
      * cbn [layers_of].
        assert (Fold : forall l acc,
              (fix go (l : list (V * hc)) (acc : option V) : option bool :=
                 match l with
                 | [] => match acc with Some w => Some (veqb O w (vdom O d)) | None => None end
                 | (v, s) :: t =>
                   match contained_aux O ds h1 s with
                   | Some true => go t (Some (match acc with None => v | Some w => vor O w v end))
                   | Some false => Some false
                   | None => None
                   end
                 end) l acc = cover2 d (contained_aux O ds h1) l acc).
        { clear. induction l as [|[v s] t IHl]; intros acc; cbn [cover2]; auto.
          destruct (contained_aux O ds h1 s) as [[|]|]; auto. }
        rewrite Fold. clear Fold.
        destruct l2 as [|e0 rest]; [congruence|]. set (l2 := e0 :: rest) in *. cbv iota.
        destruct (cover2_spec d (contained_aux O ds h1) (incl_on a1 (e2 :: b2) h1) l2 None) as [b [Eb Qb]]; auto.
        { intros [v s] Hin. apply (keyok_in _ _ _ _ _ _ K2 Hin). }
        { intros [v s] Hin. destruct (gc_sub _ _ _ _ _ _ _ _ _ _ _ G2 Hin) as [Gs [Ts _]].
          apply IH; auto; try discriminate.
          intros x Hx. assert (x <> d) by (intros ->; contradiction).
          destruct (C x) as [H'|[H'|H']]; simpl; auto. congruence. }
        exists b. split; auto. rewrite Qb. split.
        -- intros [A B] p Hp Mp. destruct (B (p d) (Hp d)) as [[]|[[v s] [Hin Hx]]].
           exists v, s. split; auto. split; auto. apply (A (v, s) Hin p); auto.
        -- intros H. split.
           ++ intros [v s] Hin p Hp Mp. destruct (gc_sub _ _ _ _ _ _ _ _ _ _ _ G2 Hin) as [Gs [Ts [Vv [x Hx]]]].
              assert (T : tmem (d :: e2 :: b2) (upd p d x) (Node c2 (d :: e2 :: b2) l2)).
              { apply H; [apply upd_indom; auto; eapply (L_sub_dom _ _ _ L); eauto|]. apply tmem_upd; auto. }
              apply (node_section vmem d (e2 :: b2) c2 (d :: e2 :: b2) l2 (upd p d x) v s) in T; auto.
              ** apply tmem_upd in T; auto.
              ** rewrite upd_same; auto.
           ++ intros x Hx. right.
              assert (T : tmem (d :: e2 :: b2) (upd q1 d x) (Node c2 (d :: e2 :: b2) l2)).
              { apply H; [apply upd_indom; auto|]. apply tmem_upd; auto. }
              destruct T as [v [s [Hin [M _]]]]. rewrite upd_same in M. exists (v, s); auto.
  - (* case 1 *)
    rewrite (proj2 (mem_dim_false d a2) I2). cbn [negb].
    destruct (subseq_cons_inv d a1 ds S1 N) as [[I1 [a1' [E1 S1']]]|[I1 S1']].
    2:{ exfalso. destruct (C d (or_introl eq_refl)); contradiction. }
    clearbody a1 a2. subst a1.
    destruct (gc_inv _ _ _ _ _ _ _ G1) as [c1 [l1 [-> [NEl1 [[K1 D1] [F1 _]]]]]].
    rewrite is_last_cons. destruct a1' as [|e1 b1].
    + assert (Eds : dims_eqb (d :: ds) [d] = false).
      { destruct (dims_eqb (d :: ds) [d]) eqn:E; auto. apply dims_eqb_eq in E. injection E as ->.
        inversion S2'; subst. congruence. }
      rewrite Eds. eexists. split; [reflexivity|].
      rewrite (is_entire_spec st a2) by auto. split.
      * intros F p Hp _. apply F; auto.
      * intros H p Hp. destruct l1 as [|[v s] t]; [congruence|].
        inversion K1 as [|? ? [Vv [x Hx]] _]; subst. cbn [fst] in *.
        assert (T : tmem a2 (upd p d x) h2).
        { apply H; [apply upd_indom; auto; eapply (L_sub_dom _ _ _ L); eauto|].
          exists v, s. rewrite upd_same. split; [simpl; auto|]. split; auto. exact I. }
        apply tmem_upd in T; auto.
    + cbn [layers_of]. assert (Nd1 : ~ In d (e1 :: b1)) by (inversion N1; auto).
      destruct (allM_spec l1 (fun p => contained_aux O ds (snd p) h2) (fun e => incl_on (e1 :: b1) a2 (snd e) h2))
        as [b [Eb Qb]].
      { intros [v s] Hin. destruct (gc_sub _ _ _ _ _ _ _ _ _ _ _ G1 Hin) as [Gs _].
        apply IH; auto; try discriminate.
        intros x Hx. assert (x <> d) by (intros ->; contradiction).
        destruct (C x) as [[H'|H']|H']; simpl; auto. congruence. }
      exists b. split; auto. rewrite Qb. split.
      * intros A p Hp [v [s [Hin [_ M]]]]. apply (A (v, s) Hin p); auto.
      * intros H [v s] Hin p Hp M. destruct (gc_sub _ _ _ _ _ _ _ _ _ _ _ G1 Hin) as [_ [_ [Vv [x Hx]]]].
        assert (T : tmem a2 (upd p d x) h2).
        { apply H; [apply upd_indom; auto; eapply (L_sub_dom _ _ _ L); eauto|].
          exists v, s. rewrite upd_same. split; auto. split; auto. apply tmem_upd; auto. }
        apply tmem_upd in T; auto.
Qed.

Lemma h_contained_spec st all h1 h2 : NoDup all -> obj st all h1 -> obj st all h2 ->
  exists b, h_contained O all h1 h2 = Some b /\
    (b = true <-> forall p, indom p -> denot h1 p -> denot h2 p).
Proof.
  intros N O1 O2. unfold h_contained.
  destruct (is_all h2) eqn:I2; cbn [orb].
  { exists true. split; auto. split; auto. intros _ p Hp _.
    apply (is_all_spec O vmem valid L st all h2 N O2); auto. }
  destruct (hbool h1) eqn:B1; cbn [negb].
  2:{ exists true. split; auto. split; auto. intros _ p Hp D.
      assert (hbool h1 = true) by (apply (hbool_spec O vmem valid L st all h1 N O1); eauto). congruence. }
  destruct (hbool h2) eqn:B2; cbn [negb orb].
  2:{ exists false. split; auto. split; [discriminate|]. intro H.
      apply (hbool_spec O vmem valid L st all h1 N O1) in B1 as [p [Hp D]].
      assert (hbool h2 = true) by (apply (hbool_spec O vmem valid L st all h2 N O2); eauto). congruence. }
  destruct (is_all h1) eqn:I1.
  { exists false. split; auto. split; [discriminate|]. intro H.
    assert (is_all h2 = true); [|congruence]. apply (is_all_spec O vmem valid L st all h2 N O2).
    intros p Hp. apply H; auto. apply (is_all_spec O vmem valid L st all h1 N O1); auto. }
  destruct (obj_cases _ _ _ _ _ _ O1) as [E1|[[B1' _]|P1]]; [rewrite E1 in I1; discriminate|congruence|].
  destruct (obj_cases _ _ _ _ _ _ O2) as [E2|[[B2' _]|P2]]; [rewrite E2 in I2; discriminate|congruence|].
  destruct (proper_ok O vmem valid L st all h2 N (proj1 O2) P2) as [_ T2].
  destruct P1 as [NE1 [S1 [G1 _]]]. destruct P2 as [NE2 [S2 [G2 _]]].
  assert (Nb : NoDup (by_order all (act_of h1 ++ act_of h2))) by (eapply subseq_nodup; [apply by_order_subseq|auto]).
  apply (contained_aux_spec st); auto.
  - apply (subseq_incl all); auto; [apply by_order_subseq|]. intros x Hx. apply by_order_in. split.
    + apply (subseq_in _ _ S1); auto.
    + apply in_app_iff; auto.
  - apply (subseq_incl all); auto; [apply by_order_subseq|]. intros x Hx. apply by_order_in. split.
    + apply (subseq_in _ _ S2); auto.
    + apply in_app_iff; auto.
  - intros d Hd. apply by_order_in in Hd as [_ Hd]. apply in_app_iff; auto.
Qed.
End ContainFacts.
