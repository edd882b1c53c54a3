(** * Which connections the connectivity map writes, for abstract connection sets. *)
From Coq Require Import ZArith List Bool Arith Lia String Ascii.
From Verif Require Import IntervalModel IntervalFacts TextModel PortProtoModel PeerModel PeerFacts PeerSetFacts PolicyModel PolicyLaws PolicyFacts LayerFacts OrderFacts
                          QueryModel QueryFacts QuerySpecs YamlModel ClusterModel FWModel MapModel.
Import ListNotations.
Local Open Scope string_scope.
Local Open Scope list_scope.
Local Open Scope nat_scope.

Lemma fold_padd_nodup : forall (f : peer -> bool) t s, NoDup s -> NoDup (fold_left (fun r p => if f p then r else padd p r) t s).
Proof. intros f. induction t as [|p t IH]; intros s H; cbn [fold_left]; auto. destruct (f p); auto. apply IH. apply padd_NoDup. exact H. Qed.
Lemma union_nodup : forall s t, NoDup s -> NoDup (ps_union s t).
Proof. intros s t. revert s. unfold ps_union. induction t as [|p t IH]; intros s H; cbn [fold_left]; auto. apply IH. apply padd_NoDup. exact H. Qed.
Lemma mask_nodup : forall s, NoDup s -> NoDup (mask_peers s).
Proof.
  intros s H. unfold mask_peers. destruct (ps_filter_mask s ips4) as [r|] eqn:E; auto. unfold ps_filter_mask in E.
  destruct (mapM _ s) as [fl|] eqn:Em; [|discriminate]. cbn [bind] in E. injection E as <-.
  assert (X : map fst fl = s).
  { clear H. revert fl Em. induction s as [|p s IH]; intros fl Em; cbn [mapM] in Em; [injection Em as <-; reflexivity|].
    match type of Em with context [bind ?a _] => destruct a as [[q b]|] eqn:Eq end; cbn [bind] in Em; [|discriminate].
    destruct (mapM _ s) as [fs|]; cbn [bind] in Em; [|discriminate]. injection Em as <-. cbn [map fst]. rewrite (IH fs eq_refl). f_equal.
    destruct p as [k n|l]; [injection Eq as <- _; reflexivity|]. destruct (ipb_contained_in l ips4); [|discriminate]. cbn [bind] in Eq. injection Eq as <- _. reflexivity. }
  assert (N : NoDup (map fst (filter (fun q => negb (snd q)) fl))).
  { rewrite <- X in H. clear - H. induction fl as [|[p b] fl IH]; cbn [filter map fst snd] in *; auto. inversion H as [|? ? H1 H2]; subst. destruct (negb b); cbn [map fst]; auto. constructor; auto.
    intros H3. apply H1. apply in_map_iff in H3 as (q & <- & H3). apply filter_In in H3 as [H3 _]. apply in_map. exact H3. }
  revert N. generalize (map fst (filter (fun q => negb (snd q)) fl)) as kept. clear. generalize (map fst (filter snd fl)) as l.
  induction l as [|p l IH]; intros kept N; cbn [fold_left]; auto. apply IH. destruct p; auto. destruct (iset_overlaps l0 ips4); auto. apply padd_NoDup. exact N.
Qed.

Section Facts.
Context (cl : cluster) (owner workload : peer -> string).
Notation in_subset := (in_subset cl owner workload).
(** The point is an endpoint of the subset. *)
Definition in_sub (s : subset) (x : point) : Prop := match x with PN k n => in_subset s (Named k n) = true | PA _ => in_subset s (Block []) = true end.
Lemma in_sub_block : forall s l, in_subset s (Block l) = in_subset s (Block []).
Proof using. reflexivity. Qed.
Lemma subset_In : forall s ps p, In p (compute_subset cl owner workload s ps) <-> In p ps /\ in_subset s p = true.
Proof using.
  intros s ps p. unfold compute_subset. destruct (no_subset s) eqn:E.
  - unfold MapModel.in_subset. rewrite E. cbn [orb]. tauto.
  - assert (G : forall l r, In p (fold_left (fun r p => if in_subset s p then padd p r else r) l r) <-> In p r \/ In p l /\ in_subset s p = true).
    { induction l as [|q l IH]; intros r; cbn [fold_left]; [cbn; tauto|]. rewrite IH. destruct (in_subset s q) eqn:Eq.
      - rewrite padd_In. cbn [In]. split; [intros [[->|H]|H]; auto; tauto|intros [H|[[->|H] H2]]; auto; tauto].
      - cbn [In]. split; [tauto|]. intros [H|[[->|H] H2]]; auto. congruence. }
    rewrite G. cbn. tauto.
Qed.
Lemma subset_nodup : forall s ps, NoDup ps -> NoDup (compute_subset cl owner workload s ps).
Proof using.
  intros s ps H. unfold compute_subset. destruct (no_subset s); auto.
  assert (G : forall l r, NoDup r -> NoDup (fold_left (fun r p => if in_subset s p then padd p r else r) l r)).
  { induction l as [|q l IH]; intros r N; cbn [fold_left]; auto. apply IH. destruct (in_subset s q); auto. apply padd_NoDup. exact N. }
  apply G. constructor.
Qed.
Lemma subset_pt : forall s ps x, pt_in x (compute_subset cl owner workload s ps) <-> pt_in x ps /\ in_sub s x.
Proof using.
  intros s ps [k n|y]; cbn [pt_in in_sub].
  - apply subset_In.
  - split.
    + intros (l & H & M). apply subset_In in H as [H1 H2]. rewrite in_sub_block in H2. split; auto. exists l. auto.
    + intros [(l & H & M) H2]. exists l. split; auto. apply subset_In. rewrite in_sub_block. auto.
Qed.

Section Alg.
Context {C Pt : Type} (A : cops C) (Q : qops C) (src dst : Pt -> point) (tcp : Pt -> bool) (space : Pt -> Prop)
        (cmem : Pt -> C -> Prop) (cok : C -> Prop) (csafe : C -> C -> Prop) (vis : list peer) (put : Pt -> Pt -> Pt)
        (L : claws A src dst tcp space cmem cok csafe vis) (QL : qlaws A Q src dst tcp space cmem cok csafe vis put)
        (NB : forall p, In p vis -> is_block p = false) (h6 : @policy C -> bool).
Local Notation law f := (f _ _ _ _ _ _ _ _ _ L).
Local Notation qlaw f := (f _ _ _ _ _ _ _ _ _ _ _ QL).
Local Notation solid := (solid cok csafe).
Local Notation usable := (usable src dst space cmem cok csafe vis).
Local Notation within := (within src dst space cmem).

Lemma and_rect_solid : forall x m, cok x -> pok vis m -> (forall y, pt_in y m -> ~ v6 y) -> solid (c_and A x (c_rect A (Some m) (Some m) None)).
Proof using L QL.
  intros x m Kx Km V w Kw. set (r := c_rect A (Some m) (Some m) None).
  assert (R : cok r) by (apply (law l_rect_ok); auto).
  assert (RM : forall pt, space pt -> (cmem pt r <-> pt_in (src pt) m /\ pt_in (dst pt) m)).
  { intros pt Sp. unfold r. rewrite (law l_rect) by (auto; cbn [opt]; auto). cbn [opt]. tauto. }
  clearbody r. destruct (c_bool A r) eqn:B.
  - apply (law l_bool r R) in B as (p & Sp & Mp).
    destruct (qlaw q_point (PA v6min) (PA 0) true) as (q & Sq & Eq & _); [right; apply v6_addr|right; apply v4_addr|].
    destruct (qlaw q_put p q Sp Sq) as (X1 & X2 & _).
    apply (proj1 (qlaw q_safe_and x r w p q Kx R Kw Sp Sq Mp (fun H => V _ (proj1 (proj1 (RM _ X1) H)) (eq_ind_r v6 (eq_ind_r v6 (proj2 v6_addr) Eq) X2)))).
  - apply (qlaw q_safe_and_empty); auto. intros pt Sp Mp.
    assert (X : c_bool A r = true) by (apply (law l_bool r R); exists pt; auto). congruence.
Qed.
(** The connections of x with an end in the subset. *)
Lemma sub_conns_spec : forall s x ps, cok x -> solid x -> pok vis ps -> NoDup ps ->
  (forall pt, space pt -> cmem pt x -> pt_in (src pt) ps /\ pt_in (dst pt) ps) ->
  let sub := compute_subset cl owner workload s ps in
  let y := if List.length sub =? List.length ps then x else c_and A x (c_or A (c_rect A (Some sub) None None) (c_rect A None (Some sub) None)) in
  cok y /\ solid y /\ forall pt, space pt -> (cmem pt y <-> cmem pt x /\ (in_sub s (src pt) \/ in_sub s (dst pt))).
Proof using L QL.
  intros s x ps Kx Sx Kp Np E. cbv zeta. set (sub := compute_subset cl owner workload s ps).
  assert (Ns : NoDup sub) by (apply subset_nodup; exact Np). assert (Is : incl sub ps) by (intros p H; apply subset_In in H as [H _]; exact H).
  assert (Ks : pok vis sub).
  { destruct Kp as [P1 P2]. split; [intros l H; apply P1; apply Is; exact H|intros k n H; apply P2; apply Is; exact H]. }
  assert (Ms : forall z, pt_in z sub <-> pt_in z ps /\ in_sub s z) by (intros z; apply subset_pt).
  destruct (Nat.eqb_spec (List.length sub) (List.length ps)) as [Eq|Ne].
  - split; auto. split; auto. intros pt Sp. split; [|tauto]. intros H. split; auto. left. destruct (E pt Sp H) as [H1 _].
    assert (J : incl ps sub) by (apply NoDup_length_incl; auto; lia). apply Ms. destruct (src pt) as [k n|y]; cbn [pt_in] in *; [apply J; exact H1|].
    destruct H1 as (l & H1 & M). exists l. auto.
  - set (r := c_or A (c_rect A (Some sub) None None) (c_rect A None (Some sub) None)).
    assert (R1 : cok (c_rect A (Some sub) None None)) by (apply (law l_rect_ok); cbn [opt]; auto).
    assert (R2 : cok (c_rect A None (Some sub) None)) by (apply (law l_rect_ok); cbn [opt]; auto).
    assert (R : cok r) by (apply (law l_or_ok); auto).
    assert (RM : forall pt, space pt -> (cmem pt r <-> pt_in (src pt) sub \/ pt_in (dst pt) sub)).
    { intros pt Sp. unfold r. rewrite (law l_or), !(law l_rect) by (auto; cbn [opt]; auto). cbn [opt]. tauto. }
    clearbody r. split; [apply (law l_and_ok); auto|]. split.
    + assert (W : exists w, anywhere vis w /\ ~ pt_in w sub).
      { assert (X : exists p, In p ps /\ ~ In p sub).
        { destruct (existsb (fun p => negb (pmem p sub)) ps) eqn:B.
          - apply existsb_exists in B as (p & H1 & H2). exists p. split; auto. intros H3. apply negb_true_iff in H2. assert (pmem p sub = true) by (apply existsb_exists; exists p; split; auto; apply peer_eqb_eq; auto). congruence.
          - exfalso. apply Ne. apply Nat.le_antisymm; apply NoDup_incl_length; auto. intros p Hp. assert (X : negb (pmem p sub) = false).
            { destruct (negb (pmem p sub)) eqn:Y; auto. rewrite <- B. symmetry. apply existsb_exists. exists p. auto. }
            apply negb_false_iff in X. apply existsb_exists in X as (q & Hq & Eq). apply peer_eqb_eq in Eq. congruence. }
        destruct X as (p & H1 & H2). destruct p as [k n|l].
        - exists (PN k n). split; [left; cbn [member]; apply (proj2 Kp); exact H1|exact H2].
        - exists (PA 0). split; [right; apply v4_addr|]. intros H3. apply Ms in H3 as [_ H3]. apply H2. apply subset_In. split; auto. }
      destruct W as (w & W1 & W2). intros y Ky. destruct (c_bool A r) eqn:B.
      * apply (law l_bool r R) in B as (p & Sp & Mp). apply RM in Mp; auto.
        assert (U : exists u, anywhere vis u /\ pt_in u sub) by (destruct (qlaw q_ends p Sp) as [U1 U2]; destruct Mp as [Mp|Mp]; [exists (src p)|exists (dst p)]; auto).
        destruct U as (u & U1 & U2). destruct (qlaw q_point u w true U1 W1) as (p' & P1 & P2 & P3 & _). destruct (qlaw q_point w w true W1 W1) as (q' & Q1 & Q2 & Q3 & _).
        destruct (qlaw q_put p' q' P1 Q1) as (X1 & X2 & X3 & _). assert (NP : ~ cmem (put p' q') r).
        { intros H. apply RM in H; auto. rewrite X2, X3, Q2, P3 in H. tauto. }
        assert (YP : cmem p' r) by (apply RM; auto; rewrite P2; auto). exact (proj1 (qlaw q_safe_and x r y p' q' Kx R Ky P1 Q1 YP NP)).
      * apply (qlaw q_safe_and_empty); auto. intros pt Sp Mp. assert (X : c_bool A r = true) by (apply (law l_bool r R); exists pt; auto). congruence.
    + intros pt Sp. rewrite (law l_and), RM by auto. rewrite !Ms. split; [tauto|]. intros [H1 H2]. split; auto. destruct (E pt Sp H1). tauto.
Qed.

Local Notation cfg_ok := (cfg_ok A src dst space cmem cok csafe vis).
Local Notation settled := (settled A space cmem).
Local Notation allows := (allows A cmem).
Theorem map_conns_spec : forall flag s g, cfg_ok g -> settled g ->
  let x := fst (map_conns cl owner workload A Q h6 flag s g) in
  let ps := snd (map_conns cl owner workload A Q h6 flag s g) in
  cok x /\ solid x /\ pok vis ps /\
  (forall pt, space pt -> (cmem pt x <-> allows g pt /\ relevant (excludes6 h6 flag g) (src pt) (dst pt) /\ (in_sub s (src pt) \/ in_sub s (dst pt)))) /\
  (forall pt, space pt -> cmem pt x -> pt_in (src pt) ps /\ pt_in (dst pt) ps) /\
  (forall k n, In (Named k n) (g_peers g) -> In (Named k n) ps).
Proof using L QL NB.
  intros flag s g G S. destruct (all_usable A Q src dst tcp space cmem cok csafe vis put L QL g G S) as (HC & K0 & W0 & S0). cbv zeta. unfold map_conns. cbv zeta. cbn [fst snd].
  change (all_conns_of A g None) with (all_of A (g_peers g) (lays (g_pols g))). unfold QuerySpecs.allows. set (x0 := all_of A (g_peers g) (lays (g_pols g))) in *. clearbody x0.
  destruct (peers_group_spec vis (g_peers g) false true HC) as [PG1 PG2].
  assert (NG : NoDup (peers_group (g_peers g) false true)) by (apply fold_padd_nodup; constructor).
  set (ps0 := ps_union (peers_group (g_peers g) false true) (q_peers Q x0)).
  assert (Kp0 : pok vis ps0) by (apply pok_union; [exact PG1|apply (qlaw q_peers_ok); auto]).
  assert (N0 : NoDup ps0) by (apply union_nodup; exact NG).
  assert (G0 : forall k n, In (Named k n) (g_peers g) -> In (Named k n) ps0).
  { intros k n H. assert (X : pt_in (PN k n) ps0); [|exact X]. unfold ps0. apply union_In. left. apply PG2. left. split; [exact H|]. left. reflexivity. }
  assert (E0 : forall pt, space pt -> cmem pt x0 -> pt_in (src pt) ps0 /\ pt_in (dst pt) ps0).
  { intros pt Sp H. unfold ps0. rewrite !union_In. destruct (qlaw q_peers_ends x0 pt K0 Sp H). auto. }
  clearbody ps0. set (ex6 := excludes6 h6 flag g). destruct (mask_spec vis ps0 Kp0) as [MK MM].
  set (ps := if ex6 then mask_peers ps0 else ps0). set (x1 := if ex6 then c_and A x0 (c_rect A (Some ps) (Some ps) None) else x0).
  assert (Kp : pok vis ps) by (unfold ps; destruct ex6; auto). assert (Np : NoDup ps) by (unfold ps; destruct ex6; auto using mask_nodup).
  assert (Mp : forall y, pt_in y ps <-> pt_in y ps0 /\ (ex6 = true -> ~ v6 y)).
  { intros y. unfold ps. destruct ex6; [rewrite MM; tauto|]. split; [|tauto]. intros H. split; auto. discriminate. }
  assert (Gp : forall k n, In (Named k n) (g_peers g) -> In (Named k n) ps).
  { intros k n H. assert (X : pt_in (PN k n) ps); [|exact X]. apply Mp. split; [apply G0; exact H|]. cbn [v6]. tauto. }
  assert (X1 : cok x1 /\ solid x1 /\ forall pt, space pt -> (cmem pt x1 <-> cmem pt x0 /\ (ex6 = true -> ~ v6 (src pt) /\ ~ v6 (dst pt)))).
  { unfold x1. destruct ex6 eqn:E6.
    - assert (R : cok (c_rect A (Some ps) (Some ps) None)) by (apply (law l_rect_ok); auto). split; [apply (law l_and_ok); auto|]. split.
      + apply and_rect_solid; auto. intros y H. apply Mp in H as [_ H]. auto.
      + intros pt Sp. rewrite (law l_and), (law l_rect) by (auto; cbn [opt]; auto). cbn [opt]. rewrite !Mp. specialize (E0 pt Sp). tauto.
    - split; auto. split; auto. intros pt Sp. split; [|tauto]. intros H. split; auto. discriminate. }
  destruct X1 as (K1 & S1 & M1). clearbody x1.
  assert (E1 : forall pt, space pt -> cmem pt x1 -> pt_in (src pt) ps /\ pt_in (dst pt) ps).
  { intros pt Sp H. apply M1 in H as [H H6]; auto. destruct (E0 pt Sp H). rewrite !Mp. tauto. }
  clearbody ps. destruct (sub_conns_spec s x1 ps K1 S1 Kp Np E1) as (K2 & S2 & M2). set (x2 := if _ =? _ then x1 else _) in *. clearbody x2.
  assert (W2 : within (g_peers g) x2). { intros pt Sp H. apply M2 in H as [H _]; auto. apply M1 in H as [H _]; auto. }
  destruct (types_spec A Q src dst tcp space cmem cok csafe vis put L QL (g_peers g) HC x2 K2 W2 (S2 _ (ip_rect_ok A src dst tcp space cmem cok csafe vis L _ HC)) (vis_named A Q src dst tcp space cmem cok csafe vis put QL NB)) as (T1 & T2 & T3 & _).
  split; [exact T1|]. split; [exact T2|]. split; [exact Kp|]. split; [|split; [|exact Gp]].
  - intros pt Sp. rewrite T3, M2, M1 by auto. unfold relevant. tauto.
  - intros pt Sp H. apply T3 in H as [H _]; auto. apply M2 in H as [H _]; auto.
Qed.
Lemma split_tcp_spec : forall x, cok x -> solid x -> let t := split_by_tcp A x in
  cok (fst t) /\ cok (snd t) /\ forall pt, space pt -> (cmem pt (fst t) <-> cmem pt x /\ tcp pt = true) /\ (cmem pt (snd t) <-> cmem pt x /\ tcp pt = false).
Proof using L.
  intros x K S. cbv zeta. unfold split_by_tcp. cbn [fst snd]. set (r := c_rect A None None (Some true)).
  assert (R : cok r) by (apply (law l_rect_ok); exact I). assert (T : cok (c_and A x r)) by (apply (law l_and_ok); auto).
  assert (M : forall pt, space pt -> (cmem pt (c_and A x r) <-> cmem pt x /\ tcp pt = true)).
  { intros pt Sp. rewrite (law l_and) by auto. unfold r. rewrite (law l_rect) by (auto; exact I). cbn [opt]. tauto. }
  split; auto. split; [apply (law l_sub_ok); auto|]. intros pt Sp. split; [apply M; auto|]. rewrite (law l_sub) by auto. rewrite M by auto. destruct (tcp pt); (split; [intros [H1 H2]; split; auto|intros [H1 H2]; split; auto]).
  - destruct H2. auto.
  - discriminate.
  - intros [_ H]. discriminate.
Qed.
End Alg.
End Facts.
