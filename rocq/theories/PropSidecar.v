(** * C41, C55, C56: Istio Sidecar documents. *)
From Coq Require Import ZArith List Bool Arith Lia String Ascii Permutation.
From Verif Require Import IntervalModel IntervalFacts HyperModel HyperFacts HyperOps HyperDims HyperTop HyperInst
                          PropHyperCube ConnModel ConnFacts TextModel TextFacts PortProtoModel PortProtoFacts PeerModel PeerFacts PeerSetFacts
                          PolicyModel PolicyLaws PolicyFacts LayerFacts OrderFacts ConnAlg StdDims PropLayers YamlModel ClusterModel K8sParserModel SelectorFacts
                          ConnDict NamedExcl PropSelectors K8sParserFacts PropK8sParser CalicoSelectorModel CalicoSelectorFacts CalicoSelectorGram
                          CalicoSelectorSets CalicoParserModel CalicoParserFacts CalicoRuleFacts PropCalicoParser
                          IstioValueModel PropIstioValues IstioParserModel IstioParserFacts IstioRuleFacts PropIstioParser ServiceModel PropServices SidecarModel
                          SidecarFacts SidecarEgressFacts.
Import ListNotations.
Local Open Scope string_scope.
Local Open Scope list_scope.
Local Open Scope nat_scope.
Local Opaque min_pod_index max_pod_index min_ipv6_index max_ipv6_index max_ipv4_index v4max v6min v6max.

(** ** What the documents say (with SidecarFacts.v and SidecarEgressFacts.v: sc_doc, sc_selects, sc_rank, governs, host_in, reaches) *)
(** The document restricts the traffic out of its workloads. *)
Definition has_egress (y : yaml) : Prop := exists n s sp, sc_doc y n s sp /\ yget sp "egress" <> YNull.
Definition registry_only (y : yaml) : Prop :=
  exists n s sp o, sc_doc y n s sp /\ yget sp "outboundTrafficPolicy" = YMap o /\ yget o "mode" = YStr "REGISTRY_ONLY".
Section Says.
Context (cl : cluster) (svcs : list service).
(** It lets the workload [x] talk to [t]: an address outside the cluster, unless only the registry is allowed, or what a host of
    an egress entry reaches. *)
Definition sidecar_allows (y : yaml) (x t : point) : Prop :=
  exists n s sp l, sc_doc y n s sp /\ yget sp "egress" = YList l /\
    ((~ registry_only y /\ is_addr t) \/ exists e a b, In e l /\ host_in e a b /\ reaches cl svcs s a b x t).
(** The documents the parser reads right: the list of egress entries is not empty, and the hosts are of the forms of host_benign. *)
Definition benign_sc (y : yaml) : Prop :=
  forall n s sp l, sc_doc y n s sp -> yget sp "egress" = YList l -> l <> [] /\ forall e, In e l -> entry_benign cl svcs s e.
End Says.

Lemma outbound_spec : forall v any, outbound_any v = Some any -> (any = true <-> ~ exists o, v = YMap o /\ yget o "mode" = YStr "REGISTRY_ONLY").
Proof.
  intros v any E. unfold outbound_any in E. destruct (ytrue v) eqn:T.
  - destruct (check_fields v _) as [m|] eqn:Ec; [|discriminate]. cbn [bind] in E. apply check_fields_map in Ec as [-> _].
    assert (X : (exists o, YMap m = YMap o /\ yget o "mode" = YStr "REGISTRY_ONLY") <-> yget m "mode" = YStr "REGISTRY_ONLY").
    { split; [intros (o & Q & H); injection Q as <-; auto|intros H; exists m; auto]. }
    rewrite X. clear X. injection E as <-. destruct (yget m "mode") as [| | | |s| |]; try (split; [intros _; discriminate|reflexivity]).
    destruct (String.eqb_spec s "REGISTRY_ONLY") as [->|N]; cbn; split; try congruence.
  - injection E as <-. split; auto. intros _ (o & -> & H). destruct o; [discriminate|discriminate T].
Qed.
Lemma registry_iff : forall y n s sp, sc_doc y n s sp -> (registry_only y <-> exists o, yget sp "outboundTrafficPolicy" = YMap o /\ yget o "mode" = YStr "REGISTRY_ONLY").
Proof.
  intros y n s sp D. split.
  - intros (n' & s' & sp' & o & D' & H). destruct (sc_doc_fn _ _ _ _ _ _ _ D D') as (_ & _ & ->). exists o. auto.
  - intros (o & H). exists n, s, sp, o. auto.
Qed.

(** ** C41: which Sidecar applies to a workload *)
Section Priority.
Context (cl : cluster) (Hc : cluster_ok cl) (Hk : kinds_ok cl) (svcs : list service).
Context {C : Type} (A : cops C) (mk : cdict -> C).
Notation policy := (PolicyModel.policy (C:=C)).
Lemma governed_selected : forall docs g p, governed cl svcs A mk docs g p ->
  (exists sp, sc_doc (fst (fst g)) (p_name p) (p_ns p) sp) /\ forall x, pt_in x (p_selected p) <-> governs cl docs (fst (fst g)) x.
Proof using.
  intros docs [[y sc] sel] p (O & E & Po & M). cbn [fst snd] in *. unfold sidecar_object in E.
  destruct (mapM _ (sc_rules sc)) as [cs|]; [|discriminate]. cbn [bind] in E. injection E as <-. cbn [p_name p_ns p_selected].
  destruct O as (sp & D & _). split; [exists sp; exact D|]. intros x. split.
  - destruct x as [k i|z]; cbn; [|intros (l & H & _); exfalso; pose proof (pods_plain cl sel Po _ H) as X; discriminate].
    intros H. apply M in H as (i' & Q & G). injection Q as -> ->. exact G.
  - intros G. destruct (selects_pod cl y x (proj1 (proj2 G))) as (i & ->). cbn. apply M. exists i. auto.
Qed.
(** There is a policy for each Sidecar document, and it selects the workloads governed by the document: those it selects, unless
    a document of higher priority does. *)
Theorem C41_policies_of_documents : forall docs pols, sidecars_of cl svcs A mk docs = Some pols ->
  exists gov others, Permutation (gov ++ others) docs /\ (forall y, In y others -> forall n s sp, ~ sc_doc y n s sp) /\
    Forall2 (fun y (p : policy) => (exists sp, sc_doc y (p_name p) (p_ns p) sp) /\ forall x, pt_in x (p_selected p) <-> governs cl docs y x) gov pols.
Proof using Hc Hk.
  intros docs pols E. destruct (sidecars_result cl svcs Hc Hk A mk docs pols E) as (gs & others & P & No & F & _).
  exists (map (fun g => fst (fst g)) gs), others. split; auto. split; auto. clear - F. induction F as [|g p gs ps G F IH]; constructor; auto.
  exact (governed_selected docs g p G).
Qed.
Lemma equal_rank : forall docs y y' x, governs cl docs y x -> governs cl docs y' x -> exists r, sc_rank y r /\ sc_rank y' r.
Proof using.
  intros docs y y' x (I1 & S1 & M1) (I2 & S2 & M2). destruct (selects_doc cl y x S1) as (n & s & sp & D). destruct (selects_doc cl y' x S2) as (n' & s' & sp' & D').
  destruct (sc_rank_ex _ _ _ _ D) as (r & Hr). destruct (sc_rank_ex _ _ _ _ D') as (r' & Hr'). exists r. split; auto.
  assert (r = r'); [|subst; auto]. pose proof (M1 y' r r' I2 S2 Hr Hr'). pose proof (M2 y r' r I1 S1 Hr' Hr). lia.
Qed.
Lemma Forall2_nth : forall {X Y} (P : X -> Y -> Prop) xs ys, Forall2 P xs ys -> forall i y, nth_error ys i = Some y -> exists x, nth_error xs i = Some x /\ P x y.
Proof using.
  intros X Y P xs ys F. induction F as [|x y xs ys H F IH]; intros [|i] z E; cbn in E; try discriminate; [injection E as <-; exists x; auto|]. destruct (IH i z E) as (x' & H1 & H2). exists x'. auto.
Qed.
(** The selected workloads of different policies are disjoint. *)
Theorem C41_disjoint : forall docs pols, sidecars_of cl svcs A mk docs = Some pols ->
  forall i j p q x, nth_error pols i = Some p -> nth_error pols j = Some q -> pt_in x (p_selected p) -> pt_in x (p_selected q) -> i = j.
Proof using Hc Hk.
  intros docs pols E. destruct (sidecars_result cl svcs Hc Hk A mk docs pols E) as (gs & others & P & No & F & NT).
  assert (SY : forall a b, no_tie cl a b -> no_tie cl b a) by (intros a b H x r H1 H2 H3 H4; exact (H x r H2 H1 H4 H3)).
  apply (FOP_perm _ SY _ _ (Permutation_sym P)) in NT. apply FOP_app in NT as [NT _].
  pose proof (proj1 (FOP_map (fun g : yaml * sidecar * peerset => fst (fst g)) (no_tie cl) gs) NT) as NT'. clear NT. rename NT' into NT.
  assert (L : forall i j p q x, i < j -> nth_error pols i = Some p -> nth_error pols j = Some q -> pt_in x (p_selected p) -> pt_in x (p_selected q) -> False).
  { intros i j p q x L Ei Ej Sp Sq. destruct (Forall2_nth _ _ _ F i p Ei) as (g & Gi & G1). destruct (Forall2_nth _ _ _ F j q Ej) as (g' & Gj & G2).
    pose proof (FOP_nth _ _ i j g g' NT L Gi Gj) as N. cbv beta in N. apply (proj2 (governed_selected docs g p G1)) in Sp. apply (proj2 (governed_selected docs g' q G2)) in Sq.
    destruct (equal_rank docs _ _ x Sp Sq) as (r & H1 & H2). exact (N x r H1 H2 (proj1 (proj2 Sp)) (proj1 (proj2 Sq))). }
  intros i j p q x Ei Ej Sp Sq. destruct (Nat.lt_trichotomy i j) as [H|[H|H]]; auto; exfalso; [apply (L i j p q x)|apply (L j i q p x)]; auto.
Qed.
(** Two documents at different places that both have the highest priority for a workload are an error. *)
Theorem C41_ties_rejected : forall docs i j y y' x r, i < j -> nth_error docs i = Some y -> nth_error docs j = Some y' ->
  sc_rank y r -> sc_rank y' r -> sc_selects cl y x -> sc_selects cl y' x -> sidecars_of cl svcs A mk docs = None.
Proof using Hc Hk.
  intros docs i j y y' x r L Ei Ej R1 R2 S1 S2. destruct (sidecars_of cl svcs A mk docs) as [pols|] eqn:E; auto. exfalso.
  destruct (sidecars_result cl svcs Hc Hk A mk docs pols E) as (_ & _ & _ & _ & _ & NT). exact (FOP_nth _ _ i j y y' NT L Ei Ej x r R1 R2 S1 S2).
Qed.
Lemma selects_dec : forall docs pols, sidecars_of cl svcs A mk docs = Some pols -> forall y x, In y docs -> sc_selects cl y x \/ ~ sc_selects cl y x.
Proof using Hc Hk.
  intros docs pols E y x Hy. destruct (sidecars_result cl svcs Hc Hk A mk docs pols E) as (gs & others & P & No & F & _).
  apply (Permutation_in _ (Permutation_sym P)) in Hy. apply in_app_or in Hy as [Hy|Hy].
  - apply in_map_iff in Hy as (g & <- & Hg). assert (O : object_of cl svcs (fst (fst g)) (snd (fst g))).
    { clear - F Hg. induction F as [|g0 p gs ps G F IH]; [destruct Hg|]. destruct Hg as [<-|Hg]; [apply G|auto]. }
    destruct (object_selected cl svcs Hc Hk _ _ O) as [_ M]. destruct x as [[|k] i|z].
    + destruct (pmem (Named 0 i) (sc_selected (snd (fst g)))) eqn:Q.
      * left. apply pmem_In, M in Q as (i' & Q & S). injection Q as <-. exact S.
      * right. intros S. assert (X : pmem (Named 0 i) (sc_selected (snd (fst g))) = true) by (apply pmem_In, M; exists i; auto). congruence.
    + right. intros S. destruct (selects_pod _ _ _ S) as (? & Q). discriminate.
    + right. intros S. destruct (selects_pod _ _ _ S) as (? & Q). discriminate.
  - right. intros S. destruct (selects_doc cl y x S) as (n & s & sp & D). exact (No y Hy n s sp D).
Qed.
(** Each workload selected by some document is governed by one. *)
Lemma some_governs : forall docs pols, sidecars_of cl svcs A mk docs = Some pols -> forall y x, In y docs -> sc_selects cl y x -> exists y', governs cl docs y' x.
Proof using Hc Hk.
  intros docs pols E y x Hy S. pose proof (selects_dec docs pols E) as D.
  assert (X : forall r y, In y docs -> sc_selects cl y x -> sc_rank y r -> exists y', governs cl docs y' x).
  { induction r as [r IH] using (well_founded_induction lt_wf). intros y0 Hy0 S0 R0.
    assert (B : (exists y' k, In y' docs /\ sc_selects cl y' x /\ sc_rank y' k /\ k < r) \/ forall y' k, In y' docs -> sc_selects cl y' x -> sc_rank y' k -> r <= k).
    { clear - D. assert (D' : forall y, In y docs -> sc_selects cl y x \/ ~ sc_selects cl y x) by (intros y H; apply D; auto). clear D. induction docs as [|y l IH].
      - right. intros y' k [].
      - destruct IH as [(y' & k & H & G)|H]; [intros z Hz; apply D'; cbn; auto|left; exists y', k; cbn; tauto|]. destruct (D' y (or_introl eq_refl)) as [S|S].
        + destruct (selects_doc cl y x S) as (n & s & sp & Dy). destruct (sc_rank_ex _ _ _ _ Dy) as (k & Rk). destruct (le_lt_dec r k) as [L|L]; [right|left; exists y, k; cbn; auto].
          intros y' k' [<-|H1] H2 H3; [rewrite (sc_rank_fn _ _ _ Rk H3); auto|apply (H y' k'); auto].
        + right. intros y' k' [<-|H1] H2 H3; [contradiction|apply (H y' k'); auto]. }
    destruct B as [(y' & k & H1 & H2 & H3 & H4)|B]; [apply (IH k H4 y' H1 H2 H3)|]. exists y0. split; auto. split; auto.
    intros y' r1 r2 H1 H2 H3 H4. rewrite (sc_rank_fn _ _ _ R0 H3). apply (B y' r2); auto. }
  destruct (selects_doc cl y x S) as (n & s & sp & Dy). destruct (sc_rank_ex _ _ _ _ Dy) as (r & Rr). apply (X r y); auto.
Qed.
Lemma Forall2_nth_l : forall {X Y} (P : X -> Y -> Prop) xs ys, Forall2 P xs ys -> forall x, In x xs -> exists i y, nth_error ys i = Some y /\ P x y.
Proof using.
  intros X Y P xs ys F. induction F as [|x y xs ys H F IH]; [intros z []|]. intros z [<-|Hz]; [exists 0, y; auto|]. destruct (IH z Hz) as (i & y' & H1 & H2). exists (S i), y'. auto.
Qed.
Theorem C41_each_workload_has_one : forall docs pols, sidecars_of cl svcs A mk docs = Some pols ->
  forall x, (exists y, In y docs /\ sc_selects cl y x) <-> exists! i, exists p, nth_error pols i = Some p /\ pt_in x (p_selected p).
Proof using Hc Hk.
  intros docs pols E x. destruct (C41_policies_of_documents docs pols E) as (gov & others & P & No & F). split.
  - intros (y & Hy & S). destruct (some_governs docs pols E y x Hy S) as (y' & G). pose proof G as (I1 & S1 & _).
    apply (Permutation_in _ (Permutation_sym P)) in I1. apply in_app_or in I1 as [I1|I1].
    + destruct (Forall2_nth_l _ _ _ F y' I1) as (i & p & H1 & _ & H2). exists i. split; [exists p; split; auto; apply H2; auto|].
      intros j (q & H3 & H4). apply (C41_disjoint docs pols E i j p q x); auto. apply H2. auto.
    + destruct (selects_doc cl y' x S1) as (n & s & sp & D). destruct (No y' I1 n s sp D).
  - intros (i & (p & H1 & H2) & _). destruct (Forall2_nth _ _ _ F i p H1) as (y & _ & _ & M). destruct (proj1 (M x) H2) as (I1 & S1 & _). exists y. auto.
Qed.
(** The documents governing a workload are one. *)
Lemma governs_one : forall docs pols, sidecars_of cl svcs A mk docs = Some pols -> forall y y' x, governs cl docs y x -> governs cl docs y' x -> y = y'.
Proof using Hc Hk.
  intros docs pols E y y' x G G'. destruct (sidecars_result cl svcs Hc Hk A mk docs pols E) as (_ & _ & _ & _ & _ & NT).
  destruct (equal_rank docs _ _ x G G') as (r & R1 & R2). destruct G as (I1 & S1 & _), G' as (I2 & S2 & _).
  apply In_nth_error in I1 as (i & Ei). apply In_nth_error in I2 as (j & Ej).
  destruct (Nat.lt_trichotomy i j) as [H|[H|H]].
  - exfalso. exact (FOP_nth _ _ i j y y' NT H Ei Ej x r R1 R2 S1 S2).
  - subst. congruence.
  - exfalso. exact (FOP_nth _ _ j i y' y NT H Ej Ei x r R2 R1 S2 S1).
Qed.
End Priority.

Section Meaning.
Context (reg : list peer) (R : reg_ok reg).
Context (cl : cluster) (Hc : cluster_ok cl) (Hk : kinds_ok cl) (HC : container reg (cl_peers cl)).
Context (Hp : forall p nm n pr, assoc_s nm (cl_ports cl p) = Some (n, pr) -> (1 <= n <= 65535)%Z).
Context (svcs : list service) (Hs : services_ok cl svcs).
Let K := std_alg reg R.
Let A := cube_ops std_dom std_all reg.
Let W := cube_laws std_dom std_rest reg reg std_peers [Ivl 0 255] K.
Notation space := (a_space std_dom).
Notation from := (a_src reg).
Notation to := (a_dst reg).
Notation mk := (conns_of std_dom reg (cl_ports cl)).

(** One entry. *)
Lemma entry_reach : forall own e r x t, egress_rule cl svcs own e = Some r -> entry_benign cl svcs own e -> (exists i, x = PN 0 i) ->
  (rule_reach cl r x t <-> exists a b, host_in e a b /\ reaches cl svcs own a b x t).
Proof using Hc Hk Hs.
  intros own e r x t E B (i & ->). destruct (egress_rule_spec cl svcs Hc Hk Hs own e r E) as (K1 & K2 & M). specialize (M B).
  assert (PN0 : forall s q, In s svcs -> In q (sv_pods s) -> exists j, q = Named 0 j) by (intros s q; apply (svc_pod cl svcs Hc Hk Hs)).
  assert (PP : forall s, known cl s -> pt_in t s -> exists k j, t = PN k j /\ In (Named k j) s).
  { intros s Ks H. destruct t as [k j|z]; cbn in H; [exists k, j; auto|]. destruct H as (l & H & _). exfalso. pose proof (known_plain cl Hc s Ks _ H) as X. discriminate. }
  unfold rule_reach. split.
  - intros [H|[[H1 H]|(i' & j & E1 & -> & H & Q)]].
    + destruct (PP _ K1 H) as (k & j & -> & H'). apply (M (Named k j)) in H' as (a & b & H1 & H2 & [(s & G1 & G2 & G3 & G4)|(d & G1 & G2 & G3 & G4)]); exists a, b; (split; [auto|]).
      * left. destruct (PN0 s _ G1 G3) as (j' & Q). injection Q as -> ->. exists s, j'. repeat split; auto. intros Q1 Q2. destruct H2. split; auto.
      * right. injection G1 as -> ->. exists d. auto.
    + destruct (PP _ K2 H) as (k & j & -> & H'). cbn in H1. subst k. apply (M (Named 2 j)) in H' as (a & b & G0 & H2 & [(s & G1 & G2 & G3 & G4)|(d & G1 & G2 & G3 & G4)]); exists a, b; (split; [auto|]).
      * destruct (PN0 s _ G1 G3) as (j' & Q). discriminate.
      * right. injection G1 as ->. exists d. auto.
    + injection E1 as <-. apply (M (Named 0 j)) in H as (a & b & H1 & H2 & [(s & G1 & G2 & G3 & G4)|(d & G1 & _)]); [|discriminate]. exists a, b. split; auto.
      left. exists s, j. repeat split; auto. intros _ _. exists i. split; auto. rewrite <- Q. apply (Hs s G1). auto.
  - intros (a & b & HI & [(s & j & G1 & -> & G2 & G3 & G4 & G5)|(d & -> & G1 & G2 & G3)]).
    + destruct (special_dec own a) as [S|S].
      * right. right. destruct S as [S1 S2]. destruct (G5 S1 S2) as (i' & Q1 & Q2). injection Q1 as <-. exists i, j. split; auto. split; auto. split.
        -- apply (M (Named 0 j)). exists a, b. split; auto. split; [split; auto|]. left. exists s. auto.
        -- rewrite Q2. apply (Hs s G1). auto.
      * left. cbn. apply (M (Named 0 j)). exists a, b. split; auto. split; auto. left. exists s. auto.
    + assert (HP : host_peers cl svcs own a b (Named 2 d)) by (right; exists d; auto). destruct (special_dec own a) as [S|S].
      * right. left. split; [reflexivity|]. cbn. apply (M (Named 2 d)). exists a, b. auto.
      * left. cbn. apply (M (Named 2 d)). exists a, b. auto.
Qed.
Lemma pair_F2 : forall {X Y} (P : X -> Y -> Prop) xs ys, Forall2 P xs ys -> (forall y, In y ys -> exists x, In x xs /\ P x y) /\ (forall x, In x xs -> exists y, In y ys /\ P x y).
Proof using.
  intros X Y P xs ys F. induction F as [|x y xs ys H F [I1 I2]]; [split; intros ? []|]. split.
  - intros z [<-|Hz]; [exists x; cbn; auto|]. destruct (I1 z Hz) as (x' & H1 & H2). exists x'. cbn. auto.
  - intros z [<-|Hz]; [exists y; cbn; auto|]. destruct (I2 z Hz) as (x' & H1 & H2). exists x'. cbn. auto.
Qed.
Lemma mapM_F2 : forall {X Y} (f : X -> option Y) l r, mapM f l = Some r -> Forall2 (fun x y => f x = Some y) l r.
Proof using.
  intros X Y f. induction l as [|x l IH]; intros r E; cbn in E; [injection E as <-; constructor|].
  destruct (f x) as [y|] eqn:Ef; [|discriminate]. cbn [bind] in E. destruct (mapM f l) as [ys|]; [|discriminate]. cbn [bind] in E. injection E as <-. constructor; auto.
Qed.
(** The policy of one document. *)
Lemma governed_policy : forall docs g p, governed cl svcs A mk docs g p -> let y := fst (fst g) in
  p_kind p = TSidecar /\ policy_wf std_dom std_rest reg p /\ confined std_dom reg (cl_peers cl) p /\
  (exists sp, sc_doc y (p_name p) (p_ns p) sp) /\ (p_affects_eg p = true <-> has_egress y) /\
  (forall x, pt_in x (p_selected p) <-> governs cl docs y x) /\
  (benign_sc cl svcs y -> forall pt, space pt -> pt 2 = 6%Z -> pt_in (from pt) (p_selected p) ->
     (p_affects_eg p = true /\ some_rule (p_egress p) pt <-> sidecar_allows cl svcs y (from pt) (to pt))).
Proof using R Hc Hk HC Hp Hs.
  intros docs [[y sc] sel] p (O & E & Po & M) y0. cbn [fst snd] in *. subst y0. unfold sidecar_object in E.
  destruct (mapM (rule_props cl A mk sel (sc_any sc)) (sc_rules sc)) as [cs|] eqn:Ec; [|discriminate]. cbn [bind] in E. injection E as <-.
  cbn [p_kind p_name p_ns p_affects_eg p_selected p_egress p_ingress].
  destruct O as (sp & D & _ & _ & Ea & Ety & _ & Er & Eo).
  pose proof (mapM_F2 _ _ _ Er) as F1. pose proof (mapM_F2 _ _ _ Ec) as F2. destruct (pair_F2 _ _ _ F1) as [F11 F12]. destruct (pair_F2 _ _ _ F2) as [F21 F22].
  assert (KR : forall r, In r (sc_rules sc) -> known cl (fst r) /\ known cl (snd r)).
  { intros r Hr. destruct (F11 r Hr) as (e & He & Q). destruct (egress_rule_spec cl svcs Hc Hk Hs _ e r Q) as (K1 & K2 & _). auto. }
  assert (Ksel : known cl sel) by (intros q H; apply (Po q H)). pose proof (known_pok reg cl Hc HC sel Ksel) as Osel.
  assert (RS : forall c, In c cs -> exists r, In r (sc_rules sc) /\ a_ok std_dom std_rest c /\ (forall pt, space pt -> pt @ c -> pt_in (from pt) sel) /\
     forall pt, space pt -> pt 2 = 6%Z -> (pt @ c <-> pt_in (from pt) sel /\ ((sc_any sc = true /\ is_addr (to pt)) \/ rule_reach cl r (from pt) (to pt)))).
  { intros c H. destruct (F21 c H) as (r & Hr & Q). exists r. split; auto. destruct (KR r Hr) as [K1 K2]. exact (rule_props_spec reg R cl Hc Hk HC Hp sel (sc_any sc) r c Po K1 K2 Q). }
  assert (SEL : forall x, pt_in x sel <-> governs cl docs y x).
  { intros x. split.
    - destruct x as [k i|z]; cbn; [|intros (l & H & _); exfalso; pose proof (known_plain cl Hc sel Ksel _ H) as X; discriminate].
      intros H. apply M in H as (i' & Q & G). injection Q as -> ->. exact G.
    - intros G. destruct (selects_pod cl y x (proj1 (proj2 G))) as (i & ->). cbn. apply M. exists i. auto. }
  split; auto. split; [|split; [|split; [exists sp; exact D|split; [|split; [exact SEL|]]]]].
  - split; [|exact Osel]. cbn [p_ingress p_egress app]. intros r Hr. apply in_map_iff in Hr as (c & <- & H). cbn. destruct (RS c H) as (r1 & _ & O1 & _).
    split; [exact O1|]. intros [X|[X|X]]; discriminate.
  - split; [intros r pt _ []|]. cbn [p_egress p_selected]. split.
    + intros r pt Sp Hr. apply in_map_iff in Hr as (c & <- & H). cbn. destruct (RS c H) as (r1 & _ & _ & O1 & _). apply O1. exact Sp.
    + intros x H. apply SEL in H as (_ & SS & _). destruct SS as (n & s & sp' & i & _ & -> & H2 & _). exact H2.
  - rewrite Ea. split.
    + intros H. exists (sc_name sc), (sc_ns sc), sp. split; auto. intros Q. rewrite Q in H. discriminate.
    + intros (n & s & sp' & D' & H). destruct (sc_doc_fn _ _ _ _ _ _ _ D D') as (_ & _ & ->). destruct (null_cases (yget sp "egress")) as [[H1 H2]|[H1 H2]]; [contradiction|rewrite H1; reflexivity].
  - intros B pt Sp T Hsel. rewrite Ea.
    destruct Ety as [Ety|(l & Ety)].
    + rewrite Ety. split; [intros [H _]; discriminate|]. intros (n & s & sp' & l & D' & H & _). destruct (sc_doc_fn _ _ _ _ _ _ _ D D') as (_ & _ & ->). congruence.
    + destruct (B _ _ _ l D Ety) as [B1 B2]. rewrite Ety in F11, F12 |- *. cbn [ylist is_null negb] in *.
      assert (XI : exists i, from pt = PN 0 i) by (apply SEL in Hsel; exact (selects_pod cl y _ (proj1 (proj2 Hsel)))).
      assert (AY : sc_any sc = true <-> ~ registry_only y) by (rewrite (registry_iff y _ _ _ D); apply outbound_spec; exact Eo).
      split.
      * intros (_ & r0 & Hr & H). apply in_map_iff in Hr as (c & <- & Hcs). cbn in H. destruct (F21 c Hcs) as (r & Hr & Q). destruct (KR r Hr) as [K1 K2].
        destruct (rule_props_spec reg R cl Hc Hk HC Hp sel (sc_any sc) r c Po K1 K2 Q) as (_ & _ & M1). destruct (proj1 (M1 pt Sp T) H) as [_ H']. clear H.
        exists (sc_name sc), (sc_ns sc), sp, l. split; auto. split; auto. destruct H' as [[H1 H2]|H]; [left; split; [apply AY|]; auto|right].
        destruct (F11 r Hr) as (e & He & Q'). destruct (proj1 (entry_reach _ e r _ _ Q' (B2 e He) XI) H) as (a & b & H1 & H2). exists e, a, b. auto.
      * intros (n & s & sp' & l' & D' & El & H). destruct (sc_doc_fn _ _ _ _ _ _ _ D D') as (-> & -> & ->). rewrite Ety in El. injection El as <-. split; auto.
        assert (G : forall e, In e l -> (sc_any sc = true /\ is_addr (to pt) \/ exists a b, host_in e a b /\ reaches cl svcs (sc_ns sc) a b (from pt) (to pt)) -> some_rule (map (Rule Allow [] []) cs) pt).
        { intros e He Hx. destruct (F12 e He) as (r & Hr & Q'). destruct (F22 r Hr) as (c & Hcs & Q). destruct (KR r Hr) as [K1 K2].
          exists (Rule Allow [] [] c). split; [apply in_map; auto|]. cbn. destruct (rule_props_spec reg R cl Hc Hk HC Hp sel (sc_any sc) r c Po K1 K2 Q) as (_ & _ & M1).
          apply (M1 pt Sp T). split; auto. destruct Hx as [Hx|Hx]; [left; auto|right]. apply (entry_reach _ e r _ _ Q' (B2 e He) XI). exact Hx. }
        destruct H as [[H1 H2]|(e & a & b & H1 & H2 & H3)].
        -- destruct l as [|e l]; [destruct B1; auto|]. apply (G e (or_introl eq_refl)). left. split; auto. apply AY. exact H1.
        -- apply (G e H1). right. exists a, b. auto.
Qed.

(** ** C55: what the Sidecars of a configuration allow *)
Section Sidecars.
Context (docs : list yaml) (pols : list policy) (E : sidecars_of cl svcs A mk docs = Some pols).
Lemma policy_of : forall p, In p pols -> exists g, In (fst (fst g)) docs /\ governed cl svcs A mk docs g p.
Proof using Hc Hk E.
  intros p H. destruct (sidecars_result cl svcs Hc Hk A mk docs pols E) as (gs & others & P & No & F & _). destruct (pair_F2 _ _ _ F) as [F1 _].
  destruct (F1 p H) as (g & Hg & G). exists g. split; auto. apply (Permutation_in _ P), in_or_app. left. apply (in_map (fun g => fst (fst g)) gs g Hg).
Qed.
Lemma document_of : forall y x, governs cl docs y x -> exists g p, fst (fst g) = y /\ In p pols /\ governed cl svcs A mk docs g p.
Proof using Hc Hk E.
  intros y x (I1 & S1 & _). destruct (sidecars_result cl svcs Hc Hk A mk docs pols E) as (gs & others & P & No & F & _).
  apply (Permutation_in _ (Permutation_sym P)) in I1. apply in_app_or in I1 as [I1|I1].
  - apply in_map_iff in I1 as (g & Eg & Hg). destruct (pair_F2 _ _ _ F) as [_ F1]. destruct (F1 g Hg) as (p & Hpp & G). exists g, p. auto.
  - destruct (selects_doc cl y x S1) as (n & s & sp & D). destruct (No y I1 n s sp D).
Qed.
Theorem C55_well_formed : forall p, In p pols -> p_kind p = TSidecar /\ policy_wf std_dom std_rest reg p /\ confined std_dom reg (cl_peers cl) p.
Proof using R Hc Hk HC Hp Hs E. intros p H. destruct (policy_of p H) as (g & _ & G). destruct (governed_policy docs g p G) as (H1 & H2 & H3 & _). auto. Qed.
(** Restricted are the workloads whose Sidecar has an egress part. *)
Theorem C55_restricted : forall x, sidecar_restricts pols x <-> exists y, governs cl docs y x /\ has_egress y.
Proof using R Hc Hk HC Hp Hs E.
  intros x. split.
  - intros (p & H & _ & Ha & S). destruct (policy_of p H) as (g & _ & G). destruct (governed_policy docs g p G) as (_ & _ & _ & _ & M1 & M2 & _).
    exists (fst (fst g)). split; [apply M2; auto|apply M1; auto].
  - intros (y & G & He). destruct (document_of y x G) as (g & p & <- & H & GP). destruct (governed_policy docs g p GP) as (M0 & _ & _ & _ & M1 & M2 & _).
    exists p. split; auto. split; auto. split; [apply M1|apply M2]; auto.
Qed.
(** A TCP connection matches if the Sidecar of its source allows it. *)
Theorem C55_allowed : (forall y, In y docs -> benign_sc cl svcs y) -> forall pt, space pt -> pt 2 = 6%Z ->
  (sidecar_matches reg pols pt <-> exists y, governs cl docs y (from pt) /\ sidecar_allows cl svcs y (from pt) (to pt)).
Proof using R Hc Hk HC Hp Hs E.
  intros B pt Sp T. split.
  - intros (p & H & _ & Ha & S & Hr). destruct (policy_of p H) as (g & I1 & G). destruct (governed_policy docs g p G) as (_ & _ & _ & _ & _ & M2 & M3).
    exists (fst (fst g)). split; [apply M2; auto|]. apply (M3 (B _ I1) pt Sp T S). auto.
  - intros (y & G & He). destruct (document_of y (from pt) G) as (g & p & <- & H & GP). destruct (governed_policy docs g p GP) as (M0 & _ & _ & _ & _ & M2 & M3).
    assert (S : pt_in (from pt) (p_selected p)) by (apply M2; exact G). apply (M3 (B _ (proj1 G)) pt Sp T S) in He as [H1 H2].
    exists p. auto.
Qed.
(** Together: the Sidecar that governs the source, if any and if it has an egress part, allows the connection. *)
Definition sidecars_say (x t : point) : Prop := forall y, governs cl docs y x -> has_egress y -> sidecar_allows cl svcs y x t.
Theorem C55_outbound : (forall y, In y docs -> benign_sc cl svcs y) -> forall pt, space pt -> pt 2 = 6%Z ->
  (sidecar_matches reg pols pt \/ ~ sidecar_restricts pols (from pt) <-> sidecars_say (from pt) (to pt)).
Proof using R Hc Hk HC Hp Hs E.
  intros B pt Sp T. rewrite (C55_allowed B pt Sp T), C55_restricted. split.
  - intros [(y & G & H)|N] y' G' He.
    + rewrite <- (governs_one cl Hc Hk svcs A mk docs pols E y y' (from pt) G G'). exact H.
    + destruct N. exists y'. auto.
  - intros H. assert (D : sidecar_restricts pols (from pt) \/ ~ sidecar_restricts pols (from pt)).
    { clear. unfold sidecar_restricts. induction pols as [|p l IH]; [right; intros (p & [] & _)|]. destruct IH as [(q & H & G)|IH]; [left; exists q; cbn; auto|].
      destruct (SemDiff.pt_in_dec (from pt) (p_selected p)) as [S|S].
      - destruct (p_affects_eg p) eqn:Ea.
        + assert (DK : p_kind p = TSidecar \/ p_kind p <> TSidecar) by (destruct (p_kind p); auto; right; discriminate). destruct DK as [DK|DK]; [left; exists p; cbn; auto|].
          right. intros (q & [<-|Hq] & G); [tauto|apply IH; exists q; auto].
        + right. intros (q & [<-|Hq] & G1 & G2 & G3); [congruence|apply IH; exists q; auto].
      - right. intros (q & [<-|Hq] & G1 & G2 & G3); [contradiction|apply IH; exists q; auto]. }
    destruct D as [D|D]; [|right; rewrite <- C55_restricted; exact D]. apply C55_restricted in D as (y & G & He). left. exists y. auto.
Qed.
End Sidecars.

(** ** C56: Sidecars with all other documents *)
(** TCP from a pod to an external name, in the Istio layer. *)
Lemma tcp_to_name : forall pols, exact_policies std_dom std_rest reg pols -> istio_list pols -> (forall p, In p pols -> confined std_dom reg (cl_peers cl) p) ->
  (forall p x, In p pols -> p_kind p = TIstioAP -> pt_in x (p_selected p) -> ~ named_dns x) ->
  forall pt, space pt -> a_tcp pt = true -> member (cl_peers cl) (from pt) /\ ~ named_dns (from pt) -> member (cl_peers cl) (to pt) /\ named_dns (to pt) ->
  (pt @ all_allowed (layer_conns A LIstio (cl_peers cl) pols only_all_allowed) <->
   (exists x, (member (cl_peers cl) x /\ ~ named_dns x) /\ ~ ap_restricts pols x) /\ (sidecar_matches reg pols pt \/ ~ sidecar_restricts pols (from pt))).
Proof using R HC.
  intros pols E KL C ND pt Sp T Hf Ht.
  destruct (exact_layer_ok std_dom std_rest reg reg std_peers [Ivl 0 255] K LIstio pols E) as [O1 O2].
  destruct (layer_conns_spec A _ _ _ _ _ _ _ _ W (cl_peers cl) HC LIstio pols only_all_allowed O1 O2 (fun _ => eq_refl)) as (_ & _ & _ & _ & M).
  destruct (M pt Sp) as (_ & _ & M3). refine (iff_trans M3 _). clear M M3.
  destruct (istio_verdicts std_dom std_rest reg reg std_peers [Ivl 0 255] K (cl_peers cl) pols pt E KL C Sp) as (V1 & V2 & V3 & V4).
  assert (Q : forall a, ~ ap_matches reg pols a pt).
  { intros a (p & Hpp & Ek & _ & S & _). exact (ND p _ Hpp Ek S (proj2 Ht)). }
  assert (QR : ~ ap_restricts pols (to pt)). { intros (p & Hpp & Ek & _ & S). exact (ND p _ Hpp Ek S (proj2 Ht)). }
  assert (QX : (exists x, (member (cl_peers cl) x /\ ~ named_dns x) /\ ~ captured_by istio_capf pols true x) <-> exists x, (member (cl_peers cl) x /\ ~ named_dns x) /\ ~ ap_restricts pols x).
  { split; intros (x & H1 & H2); exists x; (split; [auto|]); intros H; apply H2; apply (istio_captured pols x KL); auto. }
  destruct (istio_captured pols (to pt) KL) as [R1 _]. destruct (istio_captured pols (from pt) KL) as [_ R2].
  unfold layer_allows, layer_in, layer_out, dir_explicit, dir_default, istio_default, anywhere_no_dns, pod. cbv beta iota.
  rewrite T, V1, V2, V3, R1, R2, QX.
  assert (MA : forall x, member (cl_peers cl) x -> ~ is_addr x) by (intros [k n|y]; cbn; tauto).
  pose proof (MA (to pt) (proj1 Ht)) as Z1. pose proof (MA (from pt) (proj1 Hf)) as Z2. pose proof (Q Deny) as Q1. pose proof (Q Allow) as Q2. clear - Q1 Q2 QR Hf Ht Z1 Z2 V4.
  assert (X : true = false <-> False) by (split; [discriminate|tauto]). rewrite X. clear X.
  assert (X : f_all only_all_allowed = true <-> True) by (split; auto). rewrite X. clear X.
  generalize dependent (first_says (decides a_mem false pt) pols Deny). intros P4 V4. 
  generalize (exists x, (member (cl_peers cl) x /\ ~ named_dns x) /\ ~ ap_restricts pols x). intros PX.
  generalize dependent (ap_matches reg pols Deny pt). generalize dependent (ap_matches reg pols Allow pt). generalize dependent (ap_restricts pols (to pt)).
  generalize (sidecar_matches reg pols pt) (sidecar_restricts pols (from pt)). intros. tauto.
Qed.
Section All.
Context (net : yaml -> option cidr) (Hnet : forall y c, net y = Some c -> cidr_ok c) (sa : peer -> string).
Context (code : word -> Z) (dfa : list ascii -> val) (CO : code_ok code).
Context (nss : list string) (Hn : namespaces_ok cl nss).
Context (Hempty : net (YStr "") = None) (profiles : peer -> list string).
Context (kdocs : list document) (kpols : list policy) (KF : Forall2 (fun d p => parse_doc reg cl net profiles d = Some (Some p)) kdocs kpols).
Context (KB : forall d, In d kdocs -> doc_benign reg cl net profiles d).
Context (adocs : list yaml) (apols : list policy) (AF : Forall2 (fun y p => istio_policy cl net sa (val_ops std_dom) dfa A mk (hall Conn) nss y = Some (Some p)) adocs apols).
Context (AB : forall y, In y adocs -> benign_ap cl sa code dfa y).
Context (sdocs : list yaml) (spols : list policy) (SF : sidecars_of cl svcs A mk sdocs = Some spols) (SB : forall y, In y sdocs -> benign_sc cl svcs y).
(** The Sidecars are added last (PoliciesFinder.py:101-113). *)
Context (added : list policy) (AP : Permutation (kpols ++ apols) added).
Context (ND : NoDup (map (fun p => (full_name p, p_kind p)) (added ++ spols))).
Notation cont := (add_all pcont_init (added ++ spols)).
(** What Istio says about a TCP connection: into a pod, the authorization policies; out of a pod, the Sidecar that governs it. *)
Definition istio_says (pt : conn) (h w : word) : Prop :=
  pt 2 = 6%Z -> (is_addr (to pt) \/ istio_into reg cl net sa adocs pt h w) /\ (is_addr (from pt) \/ sidecars_say sdocs (from pt) (to pt)).
Lemma SC : forall p, In p spols -> p_kind p = TSidecar /\ policy_wf std_dom std_rest reg p /\ confined std_dom reg (cl_peers cl) p.
Proof using R Hc Hk HC Hp Hs SF. exact (C55_well_formed sdocs spols SF). Qed.
Theorem C56_documents_of_all_layers :
  exists sorted, Permutation kdocs sorted /\
    (forall i j d e o o', i <= j -> nth_error sorted i = Some d -> nth_error sorted j = Some e -> doc_order d o -> doc_order e o' -> rank_le o o') /\
    (no_pass_docs kdocs \/ docs_not_shadowed reg cl net profiles sorted ->
     (forall pt h w, space pt -> words_at code pt h w -> endpoint cl (from pt) -> endpoint cl (to pt) -> ~ (is_addr (from pt) /\ is_addr (to pt)) ->
      (pt @ all_allowed (config_conns A (cl_peers cl) (lays cont) only_all_allowed) <->
       doc_side reg cl net profiles sorted true pt /\ doc_side reg cl net profiles sorted false pt /\ istio_says pt h w)) /\
     (* TCP to external names; the condition on authorization policies is finding F27 *)
     (forall pt, space pt -> pt 2 = 6%Z -> member (cl_peers cl) (from pt) /\ ~ named_dns (from pt) -> member (cl_peers cl) (to pt) /\ named_dns (to pt) ->
      (pt @ all_allowed (config_conns A (cl_peers cl) (lays cont) only_all_allowed) <->
       doc_side reg cl net profiles sorted true pt /\ doc_side reg cl net profiles sorted false pt /\
       (exists x, (member (cl_peers cl) x /\ ~ named_dns x) /\ forall y, In y adocs -> ap_action y Allow -> ~ ap_selects cl y x) /\
       sidecars_say sdocs (from pt) (to pt)))).
Proof using R Hc Hk HC Hp Hs Hnet CO Hn Hempty KF KB AF AB SF SB AP ND.
  destruct (documents_and_layer reg R cl Hc Hk HC Hp net Hnet sa code dfa CO nss Hn Hempty profiles kdocs kpols KF KB adocs apols AF AB spols SC added AP ND) as (sorted & P1 & O1 & M).
  exists sorted. split; auto. split; auto. intros HX. split.
  - intros pt h w Sp Hw Hf Ht NI.
    apply (M HX pt _ Sp (proj1 Hf) (proj1 Ht) NI (proj2 Hf) (fun _ => proj2 Ht)).
    + refine (iff_trans (istio_layer_iff reg R cl Hc Hk HC Hp net Hnet sa code dfa CO nss Hn profiles kdocs kpols KF adocs apols AF AB spols SC added AP ND pt h w Sp Hw Hf Ht NI) _).
      unfold istio_allows, istio_says. split; intros H T; specialize (H T).
      * rewrite <- (C55_outbound sdocs spols SF SB pt Sp T). exact H.
      * rewrite (C55_outbound sdocs spols SF SB pt Sp T). exact H.
    + intros Z1 Z2 T. split; [right; split; [intros y Hy; destruct (Z1 y Hy)|right; intros y Hy; destruct (Z1 y Hy)]|]. right.
      apply (C55_outbound sdocs spols SF SB pt Sp T). right. intros (p & Hi & _). exact (Z2 p Hi).
  - intros pt Sp T Hf Ht.
    assert (NI : ~ (is_addr (from pt) /\ is_addr (to pt))) by (destruct Hf as [Hf _]; clear - Hf; destruct (from pt); cbn in *; tauto).
    assert (NA : is_addr (from pt) -> ~ named_dns (to pt)) by (destruct Hf as [Hf _]; clear - Hf; destruct (from pt); cbn in *; tauto).
    destruct (istio_exact reg R cl Hc Hk HC Hp net Hnet sa code dfa CO nss Hn profiles kdocs kpols KF adocs apols AF AB spols SC added AP ND) as (X1 & X2 & X3).
    pose proof (ap_restricts_iff reg R cl Hc Hk HC Hp net Hnet sa code dfa CO nss Hn profiles kdocs kpols KF adocs apols AF AB spols SC added AP ND) as RI.
    assert (PX : (exists x, (member (cl_peers cl) x /\ ~ named_dns x) /\ ~ ap_restricts (layer_list cont LIstio) x) <->
      exists x, (member (cl_peers cl) x /\ ~ named_dns x) /\ forall y, In y adocs -> ap_action y Allow -> ~ ap_selects cl y x).
    { split; intros (x & H1 & H2); exists x; (split; [exact H1|]).
      - intros y Hy Ha Hsy. apply H2. apply RI. exists y. auto.
      - intros H. destruct (proj1 (RI x) H) as (y & G1 & G2 & G3). exact (H2 y G1 G2 G3). }
    apply (M HX pt _ Sp (or_introl (proj1 Hf)) (or_introl (proj1 Ht)) NI (proj2 Hf) NA).
    + assert (Tt : a_tcp pt = true) by (apply Z.eqb_eq; exact T).
      assert (NDN : forall p x, In p (layer_list cont LIstio) -> p_kind p = TIstioAP -> pt_in x (p_selected p) -> ~ named_dns x).
      { intros p x H Ek S. apply (in_istio reg R cl Hc Hk HC Hp net Hnet sa code dfa CO nss Hn profiles kdocs kpols KF adocs apols AF AB spols SC added AP ND) in H as [H|H].
        - destruct (ap_of reg cl net sa dfa nss adocs apols AF p H) as (y & Hy & Ey).
          destruct (proj1 (C53_selected_workloads reg R cl Hc Hk HC Hp net Hnet sa code dfa CO nss Hn y p Ey (AB y Hy) x) S) as (nm & s & sp & i & _ & -> & _). discriminate.
        - rewrite (proj1 (SC p H)) in Ek. discriminate. }
      refine (iff_trans (tcp_to_name _ X1 X2 X3 NDN pt Sp Tt Hf Ht) _). rewrite PX.
      destruct (sidecars_iff reg R cl Hc Hk HC Hp net Hnet sa code dfa CO nss Hn profiles kdocs kpols KF adocs apols AF AB spols SC added AP ND pt (from pt)) as [S1 S2].
      rewrite S1, S2, (C55_outbound sdocs spols SF SB pt Sp T). reflexivity.
    + intros Z1 Z2. split.
      * exists (from pt). split; auto. intros y Hy. destruct (Z1 y Hy).
      * apply (C55_outbound sdocs spols SF SB pt Sp T). right. intros (p & Hi & _). exact (Z2 p Hi).
Qed.
End All.
End Meaning.
(** ** The services (C57) satisfy the conditions *)
Theorem C57_services_usable : forall cl, cluster_ok cl -> forall l svcs, set_services cl l = Some svcs -> (forall s, In s l -> has_char "." (ks_name s) = false) -> services_ok cl svcs.
Proof.
  intros cl Hc l svcs E ND s Hs. apply (C57_services cl l svcs E) in Hs as (k & pods & (pre & post & -> & _) & Et & ->). cbn [sv_name sv_ns sv_pods].
  split; [apply ND; apply in_or_app; cbn; auto|]. intros q Hq. apply (target_pods_spec cl Hc k pods Et) in Hq. tauto.
Qed.
Print Assumptions C41_policies_of_documents.
Print Assumptions C41_disjoint.
Print Assumptions C41_ties_rejected.
Print Assumptions C41_each_workload_has_one.
Print Assumptions C55_well_formed.
Print Assumptions C55_restricted.
Print Assumptions C55_allowed.
Print Assumptions C55_outbound.
Print Assumptions C56_documents_of_all_layers.
Print Assumptions C57_services_usable.
