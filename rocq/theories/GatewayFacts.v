(** * The rules that GenericGatewayYamlParser._make_allow_rules makes from connections. *)
From Coq Require Import ZArith List Bool Arith Lia String Ascii.
From Verif Require Import IntervalModel IntervalFacts HyperModel HyperFacts HyperOps HyperDims HyperTop HyperInst PropHyperCube ConnModel ConnFacts TextModel PortProtoModel
                          PeerModel PeerFacts PeerSetFacts PolicyModel PolicyLaws PolicyFacts LayerFacts OrderFacts ConnAlg StdDims PropLayers YamlModel ClusterModel ConnDict
                          K8sParserModel CalicoParserModel ServiceModel IngressModel.
Import ListNotations.
Local Open Scope nat_scope.
Local Opaque min_pod_index max_pod_index min_ipv6_index max_ipv6_index max_ipv4_index v4max v6min v6max.

Section Allow.
Context (reg : list peer) (R : reg_ok reg).
Let K := std_alg reg R.
Let O := val_ops std_dom.
Let L := val_laws std_dom (ok_doms _ _ _ _ _ _ K).
Let N := ok_nodup _ _ _ _ _ _ K.
Notation space := (a_space std_dom).
Notation from := (a_src reg).
Notation to := (a_dst reg).
Notation ok := (a_ok std_dom std_rest).
Let tempty : dim -> val := fun e => match std_dom e with VI _ => VI [] | VN _ _ => VN false [] end.

Lemma word_dims : forall e u m, std_dom e = VN u m -> e = 6 \/ e = 7.
Proof using. exact std_words. Qed.
(** A cube all of whose sets of words are inhabited, with the emptiness test of the code: only connections with an empty host or path
    can be lost. *)
Lemma loose_props : forall c, (forall d, val_valid std_dom d (c d)) -> (forall d, d = 6 \/ d = 7 -> exists x, val_mem x (c d)) ->
  let h := make_props O (dim_empty std_dom) std_all c in
  ok h /\ regular_conns h /\
  (forall pt, space pt -> pt @ h -> forall d, In d std_all -> val_mem (pt d) (c d)) /\
  (forall pt, space pt -> pt 6 <> 0%Z -> pt 7 <> 0%Z -> (forall d, In d std_all -> val_mem (pt d) (c d)) -> pt @ h).
Proof using R.
  intros c V I h.
  assert (D : (exists e, (e = 6 \/ e = 7) /\ veqb O (c e) (VN false [Ivl 0 0]) = true) \/ words_ok std_dom c).
  { assert (G : forall e, e = 6 \/ e = 7 -> veqb O (c e) (VN false [Ivl 0 0]) = true \/ exists x, x <> 0%Z /\ val_mem x (c e)).
    { intros e He. destruct (veqb O (c e) (VN false [Ivl 0 0])) eqn:Q; auto. right.
      assert (Ee : std_dom e = VN true []) by (destruct He as [->| ->]; reflexivity).
      assert (V0 : val_valid std_dom e (VN false [Ivl 0 0])).
      { unfold val_valid. rewrite Ee. cbn. split; [lia|]. split; [exact Logic.I|]. intros z _. rewrite mem_nil. tauto. }
      assert (VS : val_valid std_dom e (vsub O (c e) (VN false [Ivl 0 0]))) by (apply (L_sub_valid _ _ _ L e); auto).
      destruct (vbool O (vsub O (c e) (VN false [Ivl 0 0]))) eqn:B.
      - apply (L_bool _ _ _ L e _ VS) in B as (x & Hx). apply (L_sub _ _ _ L e _ _ x (V e) V0) in Hx as [H1 H2]. exists x. split; auto. intros ->. apply H2. cbn. rewrite mem_cons. cbn. lia.
      - exfalso. assert (T : veqb O (c e) (VN false [Ivl 0 0]) = true); [|congruence].
        assert (Z : forall x, val_mem x (c e) -> x = 0%Z).
        { intros x Hx. destruct (Z.eq_dec x 0) as [|Nx]; auto. exfalso. assert (X : vbool O (vsub O (c e) (VN false [Ivl 0 0])) = true); [|congruence].
          apply (L_bool _ _ _ L e _ VS). exists x. apply (L_sub _ _ _ L e _ _ x (V e) V0). split; auto. cbn. rewrite mem_cons, mem_nil. cbn. lia. }
        apply (L_eqb _ _ _ L e _ _ (V e) V0). intros x. split.
        + intros Hx. rewrite (Z x Hx). cbn. rewrite mem_cons. cbn. lia.
        + intros Hx. cbn in Hx. rewrite mem_cons, mem_nil in Hx. cbn in Hx. assert (x = 0%Z) by lia. subst x. destruct (I e He) as (y & Hy). rewrite <- (Z y Hy). exact Hy. }
    destruct (G 6 (or_introl eq_refl)) as [G6|G6]; [left; exists 6; auto|]. destruct (G 7 (or_intror eq_refl)) as [G7|G7]; [left; exists 7; auto|].
    right. intros e u m Ee. split; auto. destruct (word_dims e u m Ee) as [->| ->]; auto. }
  destruct D as [(e & He & Q)|Wk].
  - assert (Ee : std_dom e = VN true []) by (destruct He as [->| ->]; reflexivity).
    assert (V0 : val_valid std_dom e (VN false [Ivl 0 0])).
    { unfold val_valid. rewrite Ee. cbn. split; [lia|]. split; [exact Logic.I|]. intros z _. rewrite mem_nil. tauto. }
    assert (Eh : h = hempty Conn std_all).
    { unfold h, make_props. assert (X : ccube_is_empty O (dim_empty std_dom) std_all c = true); [|rewrite X; reflexivity].
      apply existsb_exists. exists e. split; [destruct He as [->| ->]; unfold std_all; cbn [In]; tauto|]. unfold dim_empty. rewrite Ee. exact Q. }
    assert (Ok : ok h) by (rewrite Eh; apply hempty_obj; [discriminate|discriminate]). split; [exact Ok|]. split; [left; exact Eh|].
    assert (Ne : forall pt, ~ pt @ h). { intros pt H. rewrite Eh in H. revert H. apply empty_denot; discriminate. }
    split; [intros pt _ H; destruct (Ne pt H)|]. intros pt _ N6 N7 H. exfalso.
    assert (M : val_mem (pt e) (c e)) by (apply H; destruct He as [->| ->]; unfold std_all; cbn [In]; tauto).
    apply (proj1 (L_eqb _ _ _ L e _ _ (V e) V0) Q) in M. cbn in M. rewrite mem_cons, mem_nil in M. cbn in M. destruct He as [->| ->]; lia.
  - assert (NE : std_all <> []) by discriminate.
    assert (Eh : h = make_props O tempty std_all c) by exact (words_empty std_dom reg reg std_peers K c Wk).
    destruct (make_props_spec O val_mem (val_valid std_dom) L std_all tempty c N NE (fun d _ => V d) (fun d _ => tempty_ok std_dom d)) as [A B].
    rewrite Eh. split; [exact A|]. split; [exact (props_cases std_dom reg reg std_peers K c V)|].
    split; [intros pt Sp H; exact (proj1 (B pt Sp) H)|]. intros pt Sp _ _ H. exact (proj2 (B pt Sp) H).
Qed.
Lemma cube_at_out : forall ds k d, ~ In d ds -> cube_at O ds k d = std_dom d.
Proof using.
  intros ds k d H. unfold cube_at. pose proof (find_none ds k d H) as Q.
  match goal with |- match ?f with _ => _ end = _ => replace f with (@None (nat * val)) by (symmetry; exact Q) end. reflexivity.
Qed.
(** The cubes of an object. *)
Lemma cubes_of : forall h, ok h ->
  (forall pt, space pt -> (pt @ h <-> exists k, In k (iter_cubes O std_all h) /\ forall d, val_mem (pt d) (cube_at O (act_of h) k d))) /\
  (forall k, In k (iter_cubes O std_all h) -> forall d, val_valid std_dom d (cube_at O (act_of h) k d) /\ exists x, val_mem x (cube_at O (act_of h) k d)).
Proof using R.
  intros h Oh. destruct (is_all h) eqn:I.
  - assert (E : h = hall (cls_of h)).
    { destruct (obj_cases _ _ _ _ _ _ Oh) as [E|[(_ & I' & _)|Pr]]; auto; [congruence|]. destruct (proper_hbool _ _ _ _ _ _ Pr) as [_ X]. congruence. }
    assert (Ea : act_of h = []) by (rewrite E; reflexivity).
    assert (D : forall k d, cube_at O (act_of h) k d = std_dom d) by (intros k d; rewrite Ea; reflexivity).
    split.
    + intros pt Sp. split.
      * intros _. exists (map (vdom O) std_all). split; [unfold iter_cubes; rewrite I; left; reflexivity|]. intros d. rewrite D. apply Sp.
      * intros _. rewrite E. exact Logic.I.
    + intros k _ d. rewrite D. split; [apply (L_dom _ _ _ L)|apply (L_dom_ne _ _ _ L)].
  - assert (NE : std_all <> []) by discriminate.
    destruct (iter_cube O val_mem (val_valid std_dom) L std_all N false h Oh I) as (Nd & _ & _ & I1 & I2 & _).
    assert (D : forall k d, ~ In d (act_of h) -> cube_at O (act_of h) k d = std_dom d).
    { intros k d Hd. apply cube_at_out; auto. }
    split.
    + intros pt Sp. refine (iff_trans (I1 pt Sp) _). split; intros (k & Hk & M); exists k; (split; [exact Hk|]).
      * intros d. destruct (in_dec Nat.eq_dec d (act_of h)) as [Hd|Hd]; [apply M; auto|rewrite D by auto; apply Sp].
      * intros d _. apply M.
    + intros k Hk d. destruct (in_dec Nat.eq_dec d (act_of h)) as [Hd|Hd]; [apply (I2 k Hk); auto|]. rewrite D by auto. split; [apply (L_dom _ _ _ L)|apply (L_dom_ne _ _ _ L)].
Qed.
(** What the rules match: TCP connections from the given peers that agree with a connection of the object in all other dimensions. *)
Definition agrees (pt q : conn) : Prop := forall d, d <> 0 -> d <> 2 -> q d = pt d.
Lemma mapM_in : forall {X Y} (f : X -> option Y) l r, mapM f l = Some r -> (forall y, In y r -> exists x, In x l /\ f x = Some y) /\ (forall x, In x l -> exists y, In y r /\ f x = Some y).
Proof using.
  intros X Y f l. induction l as [|x l IH]; intros r E; cbn [mapM] in E.
  - injection E as <-. split; intros z [].
  - destruct (f x) as [y|] eqn:Ex; [|discriminate]. cbn [bind] in E. destruct (mapM f l) as [r0|]; [|discriminate]. cbn [bind] in E. injection E as <-. destruct (IH r0 eq_refl) as [I1 I2]. split.
    + intros z [<-|Hz]; [exists x; split; [left|]; auto|]. destruct (I1 z Hz) as (x' & H1 & H2). exists x'. split; [right|]; auto.
    + intros z [<-|Hz]; [exists y; split; [left|]; auto|]. destruct (I2 z Hz) as (y' & H1 & H2). exists y'. split; [right|]; auto.
Qed.
Theorem allow_rules_spec : forall h src rs, ok h -> pok reg src -> allow_rules std_dom reg h src = Some rs ->
  (forall r, In r rs -> ok (r_props r) /\ regular_conns (r_props r) /\ r_action r = Allow /\ forall pt, space pt -> pt @ r_props r -> pt_in (from pt) src /\ pt 2 = 6%Z) /\
  (forall pt, space pt -> some_rule rs pt -> exists q, space q /\ agrees pt q /\ q @ h) /\
  (forall pt, space pt -> pt 6 <> 0%Z -> pt 7 <> 0%Z -> pt_in (from pt) src -> pt 2 = 6%Z -> (exists q, space q /\ agrees pt q /\ q @ h) -> some_rule rs pt).
Proof using R.
  intros h src rs Oh Ps E. unfold allow_rules in E. destruct (mem_dim 0 (act_of h)); [discriminate|]. fold O in E.
  destruct (mapM_in _ _ _ E) as [E1 E2]. clear E. destruct (cubes_of h Oh) as [M1 M2].
  assert (Vs : val_valid std_dom 0 (peers_val reg src)) by (apply (peers_val_valid _ _ _ _ _ _ K); auto).
  assert (Vt : val_valid std_dom 2 (VI tcp_set)) by exact (tcp_valid _ _ _ _ _ _ K).
  assert (Ms : forall pt, space pt -> (val_mem (pt 0) (peers_val reg src) <-> pt_in (from pt) src)).
  { intros pt Sp. apply (peers_val_mem _ _ _ _ _ _ K); auto. exact (Sp 0). }
  assert (Mt : forall z, val_mem z (VI tcp_set) <-> z = 6%Z) by (intros z; unfold tcp_set; cbn [val_mem]; rewrite mem_cons, mem_nil; cbn [lo hi]; lia).
  pose (c := fun k => ccube_set (ccube_set (cube_at O (act_of h) k) 0 (peers_val reg src)) 2 (VI tcp_set)).
  assert (C : forall k, In k (iter_cubes O std_all h) -> (forall d, val_valid std_dom d (c k d)) /\ (forall d, d = 6 \/ d = 7 -> exists x, val_mem x (c k d))).
  { intros k Hk. split.
    - intros d. unfold c, ccube_set. destruct (Nat.eqb_spec d 2) as [->|_]; auto. destruct (Nat.eqb_spec d 0) as [->|_]; auto. apply (M2 k Hk d).
    - intros d Hd. unfold c, ccube_set. destruct Hd as [->| ->]; cbn [Nat.eqb]; apply (M2 k Hk). }
  assert (RU : forall k r, allow_rule std_dom reg src h k = Some r -> r_action r = Allow /\ r_props r = make_props O (dim_empty std_dom) std_all (c k)).
  { intros k r Er. unfold allow_rule in Er. destruct (cube_at (val_ops std_dom) (act_of h) k 1) as [l|u l]; [|discriminate]. destruct (peer_set_by_indices reg l) as [s|]; [|discriminate]. cbn [bind] in Er. injection Er as <-. split; reflexivity. }
  assert (A0 : In 0 std_all /\ In 2 std_all) by (unfold std_all; cbn [In]; tauto).
  split; [|split].
  - intros r Hr. destruct (E1 r Hr) as (k & Hk & Er). destruct (RU k r Er) as [-> ->]. destruct (C k Hk) as [C1 C2]. destruct (loose_props (c k) C1 C2) as (L1 & L2 & L3 & _).
    split; [exact L1|]. split; [exact L2|]. split; [reflexivity|]. intros pt Sp Hm. pose proof (L3 pt Sp Hm) as X. split.
    + apply Ms; auto. exact (X 0 (proj1 A0)).
    + apply Mt. exact (X 2 (proj2 A0)).
  - intros pt Sp (r & Hr & Hm). destruct (E1 r Hr) as (k & Hk & Er). destruct (RU k r Er) as [_ Ep]. rewrite Ep in Hm. destruct (C k Hk) as [C1 C2]. destruct (loose_props (c k) C1 C2) as (_ & _ & L3 & _).
    pose proof (L3 pt Sp Hm) as X. destruct (proj2 (M2 k Hk 0)) as (x0 & H0). destruct (proj2 (M2 k Hk 2)) as (x2 & H2).
    exists (fun d => if Nat.eqb d 0 then x0 else if Nat.eqb d 2 then x2 else pt d).
    assert (V : forall d, val_mem ((fun d => if Nat.eqb d 0 then x0 else if Nat.eqb d 2 then x2 else pt d) d) (cube_at O (act_of h) k d)).
    { intros d. cbv beta. destruct (Nat.eqb_spec d 0) as [->|N0]; auto. destruct (Nat.eqb_spec d 2) as [->|N2]; auto.
      destruct (in_dec Nat.eq_dec d std_all) as [Hd|Hd].
      - specialize (X d Hd). unfold c, ccube_set in X. rewrite (proj2 (Nat.eqb_neq d 2) N2), (proj2 (Nat.eqb_neq d 0) N0) in X. exact X.
      - assert (Na : ~ In d (act_of h)).
        { intros Hd'. apply Hd. destruct (obj_cases _ _ _ _ _ _ Oh) as [Q|[(_ & _ & _ & _ & S)|Pr]]; [rewrite Q in Hd'; destruct Hd'|apply (subseq_in _ _ S); auto|].
          destruct Pr as (_ & S & _). apply (subseq_in _ _ S); auto. }
        rewrite cube_at_out by exact Na. apply Sp. }
    split; [|split].
    + intros d. apply (L_sub_dom _ _ _ L d (cube_at O (act_of h) k d)); [apply (M2 k Hk)|apply V].
    + intros d N0 N2. rewrite (proj2 (Nat.eqb_neq d 0) N0), (proj2 (Nat.eqb_neq d 2) N2). reflexivity.
    + apply M1; [|exists k; auto]. intros d. apply (L_sub_dom _ _ _ L d (cube_at O (act_of h) k d)); [apply (M2 k Hk)|apply V].
  - intros pt Sp N6 N7 Hf T (q & Sq & Ag & Hq). apply (M1 q Sq) in Hq as (k & Hk & Hq). destruct (E2 k Hk) as (r & Hr & Er). destruct (RU k r Er) as [_ Ep]. exists r. split; auto. rewrite Ep.
    destruct (C k Hk) as [C1 C2]. destruct (loose_props (c k) C1 C2) as (_ & _ & _ & L4). apply L4; auto. intros d _. unfold c, ccube_set.
    destruct (Nat.eqb_spec d 2) as [->|N2]; [apply Mt; auto|]. destruct (Nat.eqb_spec d 0) as [->|N0]; [apply Ms; auto|]. rewrite <- (Ag d N0 N2). apply Hq.
Qed.
End Allow.
