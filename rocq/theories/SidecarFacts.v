(** * Facts about the Sidecar parser: which peers each sidecar keeps. *)
From Coq Require Import ZArith List Bool Arith Lia String Ascii Permutation.
From Verif Require Import IntervalModel IntervalFacts HyperModel HyperFacts HyperOps HyperDims HyperTop HyperInst
                          PropHyperCube ConnModel ConnFacts TextModel TextFacts PortProtoModel PortProtoFacts PeerModel PeerFacts PeerSetFacts
                          PolicyModel PolicyLaws PolicyFacts LayerFacts OrderFacts ConnAlg StdDims PropLayers YamlModel ClusterModel K8sParserModel SelectorFacts
                          ConnDict NamedExcl PropSelectors K8sParserFacts PropK8sParser CalicoSelectorModel CalicoSelectorFacts CalicoSelectorGram
                          CalicoSelectorSets CalicoParserModel CalicoParserFacts CalicoRuleFacts PropCalicoParser
                          IstioValueModel PropIstioValues IstioParserModel IstioParserFacts IstioRuleFacts PropIstioParser ServiceModel SidecarModel.
Import ListNotations.
Local Open Scope string_scope.
Local Open Scope list_scope.
Local Open Scope nat_scope.
Local Opaque min_pod_index max_pod_index min_ipv6_index max_ipv6_index max_ipv4_index v4max v6min v6max.

(** ** What a document says (independent of the parser) *)
Definition sc_doc (y : yaml) (name ns : string) (sp : list (string * yaml)) : Prop :=
  exists m md v, y = YMap m /\ yget m "kind" = YStr "Sidecar" /\ yget m "apiVersion" = YStr v /\
    In v ["networking.istio.io/v1alpha3"; "networking.istio.io/v1beta1"] /\
    yget m "metadata" = YMap md /\ yget md "name" = YStr name /\ yget m "spec" = YMap sp /\ ap_ns md ns.
(** 0: it has a workload selector; 1: the default of a namespace; 2: the default of all namespaces. *)
Definition sc_rank (y : yaml) (r : nat) : Prop :=
  exists name ns sp, sc_doc y name ns sp /\
    (yget sp "workloadSelector" <> YNull /\ r = 0 \/ yget sp "workloadSelector" = YNull /\ ns <> "istio-config" /\ r = 1 \/
     yget sp "workloadSelector" = YNull /\ ns = "istio-config" /\ r = 2).
(** The workloads: the pods of its namespace - of all namespaces, in the root namespace - that have all labels of the selector. *)
Definition sc_selects (cl : cluster) (y : yaml) (x : point) : Prop :=
  exists name ns sp i, sc_doc y name ns sp /\ x = PN 0 i /\ In (Named 0 i) (cl_peers cl) /\
    (ns = "istio-config" \/ cl_ns cl (Named 0 i) = Some ns) /\
    forall s l k v, yget sp "workloadSelector" = YMap s -> yget s "labels" = YMap l -> In (k, v) l -> exists w, v = YStr w /\ pod_has cl (Named 0 i) k w.
(** The Sidecar that applies to a workload: of those that select it, the one with the highest priority. *)
Definition governs (cl : cluster) (docs : list yaml) (y : yaml) (x : point) : Prop :=
  In y docs /\ sc_selects cl y x /\ forall y' r r', In y' docs -> sc_selects cl y' x -> sc_rank y r -> sc_rank y' r' -> r <= r'.
Lemma sc_doc_fn : forall y n s sp n' s' sp', sc_doc y n s sp -> sc_doc y n' s' sp' -> n' = n /\ s' = s /\ sp' = sp.
Proof.
  intros y n s sp n' s' sp' (m & md & v & -> & E1 & E2 & E3 & E4 & E5 & E6 & E7) (m' & md' & v' & E & F1 & F2 & F3 & F4 & F5 & F6 & F7). injection E as <-.
  rewrite E4 in F4. injection F4 as <-. rewrite E5 in F5. injection F5 as <-. rewrite E6 in F6. injection F6 as <-. split; auto. split; auto.
  destruct E7 as [[A1 A2]|[[A1|A1] A2]], F7 as [[B1 B2]|[[B1|B1] B2]]; congruence.
Qed.
Lemma sc_rank_fn : forall y r r', sc_rank y r -> sc_rank y r' -> r' = r.
Proof.
  intros y r r' (n & s & sp & D & H) (n' & s' & sp' & D' & H'). destruct (sc_doc_fn _ _ _ _ _ _ _ D D') as (-> & -> & ->).
  destruct H as [[A1 A2]|[(A1 & A2 & A3)|(A1 & A2 & A3)]], H' as [[B1 B2]|[(B1 & B2 & B3)|(B1 & B2 & B3)]]; congruence.
Qed.
Lemma sc_rank_ex : forall y n s sp, sc_doc y n s sp -> exists r, sc_rank y r.
Proof.
  intros y n s sp D. destruct (null_cases (yget sp "workloadSelector")) as [[_ H]|[_ H]].
  - destruct (String.eqb_spec s "istio-config") as [Q|Q]; [exists 2|exists 1]; exists n, s, sp; tauto.
  - exists 0. exists n, s, sp. tauto.
Qed.

(** ** The selected workloads *)
Section Select.
Context (reg : list peer) (cl : cluster) (Hc : cluster_ok cl) (Hk : kinds_ok cl).
Lemma sc_selector_In : forall y s, workload_selector cl "labels" y = Some s ->
  plain s /\ forall q, In q s <-> In q (cl_peers cl) /\ is_dns q = false /\
    forall m l k v, y = YMap m -> yget m "labels" = YMap l -> In (k, v) l -> exists w, v = YStr w /\ pod_has cl q k w.
Proof using Hc.
  intros y s E. unfold workload_selector in E. destruct (ytrue y) eqn:T; cbn [negb] in E.
  - destruct (check_fields y _) as [m|] eqn:Ec; [|discriminate]. cbn [bind] in E. apply check_fields_map in Ec as [-> _].
    destruct (yget m "labels") as [| | | | | |[|kv t]] eqn:El; try discriminate.
    destruct (label_fold_In cl Hc (kv :: t) s E) as [P M]. split; auto. intros q. rewrite M. split.
    + intros (H1 & H2 & H3). split; auto. split; auto. intros m' l k v Em El'. injection Em as <-. rewrite El in El'. injection El' as <-. apply H3.
    + intros (H1 & H2 & H3). split; auto. split; auto. intros k v. apply (H3 m (kv :: t)); auto.
  - injection E as <-. pose proof (cluster_plain cl Hc) as Pc. split; [apply all_group_plain; auto|]. intros q. rewrite all_group_In by auto. split; [|tauto].
    intros [H1 H2]. split; auto. split; auto. intros m l k v -> El Hv. destruct m; discriminate.
Qed.
(** The Python sets are lists of pods. *)
Definition pods_only (s : peerset) : Prop := forall q, In q s -> In q (cl_peers cl) /\ exists i, q = Named 0 i.
Lemma pods_plain : forall s, pods_only s -> plain s.
Proof using. intros s H q Hq. destruct (H q Hq) as (_ & i & ->). reflexivity. Qed.
Lemma sc_peers_spec : forall y name ns sp s, sc_doc y name ns sp -> policy_peers cl ns "labels" (yget sp "workloadSelector") = Some s ->
  (ns = "istio-config" -> yget sp "workloadSelector" = YNull) ->
  pods_only s /\ forall q, In q s <-> exists i, q = Named 0 i /\ sc_selects cl y (PN 0 i).
Proof using Hc Hk.
  intros y name ns sp s D E B. unfold policy_peers in E. pose proof (cluster_plain cl Hc) as Pc.
  match type of E with bind ?e _ = _ => destruct e as [sel|] eqn:Es; [|discriminate] end. cbn [bind] in E.
  assert (X : plain sel /\ forall q, In q sel <-> (In q (cl_peers cl) /\ is_dns q = false /\
    forall m l k v, yget sp "workloadSelector" = YMap m -> yget m "labels" = YMap l -> In (k, v) l -> exists w, v = YStr w /\ pod_has cl q k w) /\
    (yget sp "workloadSelector" = YNull -> is_hep q = false)).
  { destruct (yget sp "workloadSelector") as [|b|z|z|w|l|m] eqn:Ey.
    1:{ injection Es as <-. split.
        - intros q Hq. apply filter_In in Hq as [Hq _]. apply (all_group_plain cl Pc q Hq).
        - intros q. rewrite filter_In, all_group_In, negb_true_iff by auto. split; [|tauto]. intros [[H1 H2] H3]. repeat split; auto. intros m l k v Em. discriminate. }
    all: destruct (sc_selector_In _ _ Es) as [P M]; split; auto; intros q; rewrite M; (split; [|tauto]); intros H; split; auto; discriminate. }
  destruct X as [Ps Ms].
  assert (Y : plain s /\ forall q, In q s <-> In q sel /\ (ns = "istio-config" \/ cl_ns cl q = Some ns)).
  { unfold root_namespace in E. destruct (String.eqb_spec ns "istio-config") as [Q|Nr].
    - injection E as <-. split; auto. intros q. tauto.
    - destruct (plain_inter sel (namespace_pods cl (Some ns)) Ps (ns_pods_plain cl Hc (Some ns))) as (r & Er & Pr & Mr). rewrite E in Er. injection Er as <-.
      split; auto. intros q. rewrite Mr, (namespace_pods_In cl (Some ns) q). cbn. split; [intros [H1 [H2 H3]]; auto|]. intros [H1 [H2|H2]]; [tauto|].
      split; auto. split; auto. apply Ms in H1. tauto. }
  destruct Y as [Pq Mq].
  assert (PD : forall q, In q s -> In q (cl_peers cl) /\ exists i, q = Named 0 i).
  { intros q H. apply Mq in H as [H1 H2]. apply Ms in H1 as ((Hq & H3 & H4) & H5). split; auto. apply (pod_of cl Hc Hk q Hq H3).
    destruct H2 as [H2|H2]; [auto|]. apply (pod_iff cl Hc Hk _ Hq). rewrite H2. discriminate. }
  split; auto. intros q. unfold sc_selects. split.
  - intros H. destruct (PD q H) as (Hq & i & ->). exists i. split; auto. apply Mq in H as [H1 H2]. apply Ms in H1 as ((_ & _ & H4) & _). exists name, ns, sp, i. auto 10.
  - intros (i & -> & n' & s' & sp' & j & D' & Ej & H1 & H2 & H3). injection Ej as <-. destruct (sc_doc_fn _ _ _ _ _ _ _ D D') as (-> & -> & ->).
    apply Mq. split; auto. apply Ms. destruct (pod_flags i) as [F1 F2]. auto.
Qed.
End Select.

(** ** Inversion of the parser *)
Section Parse.
Context (cl : cluster) (svcs : list service).
(** The sidecar object of a document. *)
Definition object_of (y : yaml) (sc : sidecar) : Prop :=
  exists sp, sc_doc y (sc_name sc) (sc_ns sc) sp /\ sc_default sc = is_null (yget sp "workloadSelector") /\
    (sc_ns sc = "istio-config" -> yget sp "workloadSelector" = YNull) /\
    sc_affects sc = negb (is_null (yget sp "egress")) /\ (yget sp "egress" = YNull \/ exists l, yget sp "egress" = YList l) /\
    policy_peers cl (sc_ns sc) "labels" (yget sp "workloadSelector") = Some (sc_selected sc) /\
    mapM (egress_rule cl svcs (sc_ns sc)) (ylist (yget sp "egress")) = Some (sc_rules sc) /\
    outbound_any (yget sp "outboundTrafficPolicy") = Some (sc_any sc).
Definition put (st : state) (sc : sidecar) (pn : peerset * list string) : state :=
  if sc_default sc then
    if String.eqb (sc_ns sc) "istio-config" then State (fst pn) (st_specific st) (st_default st) (st_global st ++ [sc]) (snd pn)
    else State (fst pn) (st_specific st) (st_default st ++ [sc]) (st_global st) (snd pn)
  else State (fst pn) (st_specific st ++ [sc]) (st_default st) (st_global st) (snd pn).
Lemma contains_istio : forall v, In v ["networking.istio.io/v1alpha3"; "networking.istio.io/v1beta1"] -> contains_str "istio" v = true.
Proof using. intros v [<-|[<-|[]]]; reflexivity. Qed.
Lemma sidecar_policy_inv : forall st y st', sidecar_policy cl svcs st y = Some st' ->
  (st' = st /\ forall n s sp, ~ sc_doc y n s sp) \/
  exists sc pn, object_of y sc /\ check_priority st (sc_ns sc) (sc_default sc) (sc_selected sc) = Some pn /\ st' = put st sc pn.
Proof using.
  intros st y st' E. unfold sidecar_policy in E.
  match type of E with bind ?e _ = _ => destruct e as [o|] eqn:Eg; [|discriminate] end. cbn [bind] in E.
  unfold parse_generic in Eg. destruct y as [| | | | | |m0]; try discriminate.
  destruct (negb (among _ (yget m0 "kind"))) eqn:Ek.
  { injection Eg as <-. injection E as <-. left. split; auto. intros n s sp (m & md & v & Em & E1 & _). injection Em as <-. rewrite E1 in Ek. discriminate. }
  assert (NV : forall v, yget m0 "apiVersion" <> YStr v \/ existsb (fun w => contains_str w v) ["istio"] = false -> forall n s sp, sc_doc (YMap m0) n s sp -> yget m0 "apiVersion" <> YStr v).
  { intros v [H|H] n s sp (m & md & v' & Em & _ & E1 & E2 & _); auto. injection Em as <-. rewrite E1. intros X. injection X as ->.
    cbn [existsb] in H. rewrite (contains_istio v E2) in H. discriminate. }
  assert (NS : (forall v, yget m0 "apiVersion" <> YStr v) -> forall n s sp, ~ sc_doc (YMap m0) n s sp).
  { intros H n s sp (m & md & v' & Em & _ & E1 & _). injection Em as <-. apply (H v' E1). }
  destruct (yget m0 "apiVersion") as [| | | |v|l|d] eqn:Ev; try discriminate.
  - destruct (negb (existsb _ _)) eqn:Ex.
    { injection Eg as <-. injection E as <-. left. split; auto. intros n s sp D. apply (NV v (or_intror (proj1 (negb_true_iff _) Ex)) n s sp D). reflexivity. }
    match type of Eg with bind ?e _ = _ => destruct e as [mm|] eqn:Ec; [|discriminate] end. cbn [bind] in Eg.
    apply check_fields_map in Ec as [Em F]. injection Em as <-.
    destruct (check_fields (yget m0 "metadata") metadata_fields) as [md|] eqn:Ed; [|discriminate]. cbn [bind] in Eg.
    apply check_fields_map in Ed as [Ed Fm]. destruct (yget md "name") as [| | | |nm| |] eqn:Enm; try discriminate. injection Eg as <-.
    apply negb_false_iff in Ek. destruct (yget m0 "kind") as [| | | |kind| |] eqn:Ekd; try discriminate.
    assert (Hkind : kind = "Sidecar") by (apply smem_In in Ek; destruct Ek as [<-|[]]; reflexivity). subst kind.
    assert (Hv : In v ["networking.istio.io/v1alpha3"; "networking.istio.io/v1beta1"]).
    { pose proof (field_of m0 _ (Field "apiVersion" Mandatory (Some TyStr) (Some (among ["networking.istio.io/v1alpha3"; "networking.istio.io/v1beta1"]))) F) as X.
      specialize (X (or_intror (or_introl eq_refl))). unfold field_ok in X. cbn [f_key f_usage f_type f_values] in X. unfold yget in Ev.
      destruct (assoc_s "apiVersion" m0) as [v0|]; [|discriminate]. subst v0. apply andb_true_iff in X as [_ X]. apply orb_true_iff in X as [X|X].
      - cbn in X. apply negb_true_iff, negb_false_iff, String.eqb_eq in X. subst v. discriminate.
      - apply smem_In. exact X. }
    set (nsy := match assoc_s "namespace" md with Some v0 => v0 | None => YStr "default" end) in *.
    destruct nsy as [| | | |ns| |] eqn:En; try discriminate.
    assert (Hns : ap_ns md (ns_name ns)).
    { unfold nsy in En. unfold ap_ns, yget, ns_name. destruct (assoc_s "namespace" md) as [v0|].
      - subst v0. destruct (String.eqb_spec ns "") as [Q|Q]; [subst ns; right|left]; auto.
      - injection En as <-. right. auto. }
    cbv zeta in E. match type of E with bind ?e _ = _ => destruct e as [sp|] eqn:Es; [|discriminate] end. cbn [bind] in E.
    apply check_fields_map in Es as [Esp Fsp].
    assert (Teg : yget sp "egress" = YNull \/ exists l, yget sp "egress" = YList l).
    { pose proof (field_of sp _ (Field "egress" Optional (Some TyList) None) Fsp (or_intror (or_intror (or_introl eq_refl)))) as X. unfold field_ok in X. cbn [f_key f_usage f_type f_values] in X.
      unfold yget. destruct (assoc_s "egress" sp) as [v0|]; auto. destruct v0; auto; try discriminate; try (apply andb_true_iff in X as [X _]; discriminate). right. eexists. reflexivity. }
    destruct (String.eqb (ns_name ns) root_namespace && negb (is_null (yget sp "workloadSelector"))) eqn:Er; [discriminate|].
    match type of E with bind ?e _ = _ => destruct e as [sel|] eqn:Esel; [|discriminate] end. cbn [bind] in E.
    match type of E with bind ?e _ = _ => destruct e as [pn|] eqn:Epr; [|discriminate] end. cbn [bind] in E.
    match type of E with bind ?e _ = _ => destruct e as [rules|] eqn:Eru; [|discriminate] end. cbn [bind] in E.
    match type of E with bind ?e _ = _ => destruct e as [any|] eqn:Ean; [|discriminate] end. cbn [bind] in E. injection E as <-.
    right. exists (Sidecar nm (ns_name ns) (is_null (yget sp "workloadSelector")) (negb (is_null (yget sp "egress"))) sel rules any), pn.
    split; [|split].
    + exists sp. cbn [sc_name sc_ns sc_default sc_affects sc_selected sc_rules sc_any].
      split; [exists m0, md, v; auto 10|]. split; auto. split.
      { intros Hr. unfold root_namespace in Er. rewrite Hr in Er. cbn in Er. apply negb_false_iff in Er. destruct (null_cases (yget sp "workloadSelector")) as [[_ H]|[H _]]; [auto|congruence]. }
      auto.
    + exact Epr.
    + unfold put. cbn [sc_default sc_ns]. unfold root_namespace. reflexivity.
  - left. destruct (existsb _ _); [discriminate|]. injection Eg as <-. injection E as <-. split; auto. apply NS. discriminate.
  - left. destruct (existsb _ _); [discriminate|]. injection Eg as <-. injection E as <-. split; auto. apply NS. discriminate.
Qed.
End Parse.

(** ** Pairs in a list *)
Lemma FOP_app : forall {X} (R : X -> X -> Prop) l l', ForallOrdPairs R (l ++ l') <->
  ForallOrdPairs R l /\ ForallOrdPairs R l' /\ forall a b, In a l -> In b l' -> R a b.
Proof.
  intros X R l l'. induction l as [|x t IH]; cbn.
  - split; [intros H; split; [constructor|split; [auto|tauto]]|tauto].
  - split.
    + intros H. inversion H as [|x0 t0 H1 H2]; subst. apply IH in H2 as (H2 & H3 & H4). apply Forall_app in H1 as [H1 H1'].
      split; [constructor; auto|]. split; auto. intros a b [<-|Ha] Hb; [|auto]. rewrite Forall_forall in H1'. auto.
    + intros (H1 & H2 & H3). inversion H1 as [|x0 t0 H4 H5]; subst. constructor.
      * apply Forall_app. split; auto. apply Forall_forall. intros b Hb. apply H3; auto.
      * apply IH. split; auto.
Qed.
Lemma FOP_perm : forall {X} (R : X -> X -> Prop), (forall a b, R a b -> R b a) -> forall l l', Permutation l l' -> ForallOrdPairs R l -> ForallOrdPairs R l'.
Proof.
  intros X R Sy l l' P. induction P as [|x l l' P IH|x y l|l1 l2 l3 P1 IH1 P2 IH2]; intros H; auto.
  - inversion H as [|x0 t0 H1 H2]; subst. constructor; auto. eapply Permutation_Forall; eauto.
  - inversion H as [|x0 t0 H1 H2]; subst. inversion H2 as [|x1 t1 H3 H4]; subst. inversion H1 as [|x2 t2 H5 H6]; subst. constructor; constructor; auto.
Qed.
Lemma FOP_nth : forall {X} (R : X -> X -> Prop) l i j a b, ForallOrdPairs R l -> (i < j)%nat -> nth_error l i = Some a -> nth_error l j = Some b -> R a b.
Proof.
  intros X R l. induction l as [|x t IH]; intros i j a b H L Ei Ej; [destruct i; discriminate|].
  inversion H as [|x0 t0 H1 H2]; subst. destruct j as [|j]; [lia|]. cbn in Ej. destruct i as [|i]; cbn in Ei.
  - injection Ei as <-. rewrite Forall_forall in H1. apply H1. apply (nth_error_In t j Ej).
  - apply (IH i j a b); auto. lia.
Qed.
Lemma FOP_map : forall {X Y} (f : Y -> X) (R : X -> X -> Prop) l, ForallOrdPairs R (map f l) <-> ForallOrdPairs (fun a b => R (f a) (f b)) l.
Proof.
  intros X Y f R l. induction l as [|x t IH]; cbn; [split; constructor|].
  split; intros H; inversion H as [|x0 t0 H1 H2]; subst; constructor; try (apply IH; auto).
  - rewrite Forall_map in H1. auto.
  - rewrite Forall_map. auto.
Qed.
Lemma FOP_imp : forall {X} (R R' : X -> X -> Prop) l, (forall a b, In a l -> In b l -> R a b -> R' a b) -> ForallOrdPairs R l -> ForallOrdPairs R' l.
Proof.
  intros X R R' l H F. induction F as [|x t H1 H2 IH]; constructor.
  - rewrite Forall_forall in *. intros b Hb. apply H; cbn; auto.
  - apply IH. intros a b Ha Hb. apply H; cbn; auto.
Qed.

(** ** The state after the documents *)
Section Docs.
Context (cl : cluster) (svcs : list service) (Hc : cluster_ok cl) (Hk : kinds_ok cl).
Definition apart (s t : peerset) : Prop := forall q, In q s -> In q t -> False.
Definition all_three (S De G : list (yaml * sidecar)) := S ++ De ++ G.
Record docs_inv (docs : list yaml) (st : state) (S De G : list (yaml * sidecar)) (others : list yaml) : Prop := {
  i_perm : Permutation (map fst (S ++ De ++ G) ++ others) docs;
  i_others : forall y, In y others -> forall n s sp, ~ sc_doc y n s sp;
  i_objects : forall g, In g (S ++ De ++ G) -> object_of cl svcs (fst g) (snd g);
  i_S : map snd S = st_specific st /\ forall g, In g S -> sc_default (snd g) = false;
  i_De : map snd De = st_default st /\ forall g, In g De -> sc_default (snd g) = true /\ sc_ns (snd g) <> "istio-config";
  i_G : map snd G = st_global st /\ forall g, In g G -> sc_default (snd g) = true /\ sc_ns (snd g) = "istio-config";
  i_nss : NoDup (map (fun g => sc_ns (snd g)) (De ++ G)) /\ forall n, In n (st_nss st) <-> In n (map (fun g => sc_ns (snd g)) (De ++ G));
  i_peers : pods_only cl (st_peers st) /\ forall q, In q (st_peers st) <-> exists g, In g S /\ In q (sc_selected (snd g));
  i_apart : ForallOrdPairs (fun g g' => apart (sc_selected (snd g)) (sc_selected (snd g'))) S
}.
Lemma object_selected : forall y sc, object_of cl svcs y sc ->
  pods_only cl (sc_selected sc) /\ forall q, In q (sc_selected sc) <-> exists i, q = Named 0 i /\ sc_selects cl y (PN 0 i).
Proof using Hc Hk. intros y sc (sp & D & E1 & E2 & E3 & _ & E4 & _). exact (sc_peers_spec cl Hc Hk y _ _ sp _ D E4 E2). Qed.
Lemma NoDup_snoc : forall {X} (l : list X) x, NoDup l -> ~ In x l -> NoDup (l ++ [x]).
Proof using.
  intros X l x N H. apply (Permutation_NoDup (l := x :: l)); [|constructor; auto]. apply Permutation_cons_append.
Qed.
Lemma docs_step : forall docs st S De G others y st', docs_inv docs st S De G others -> sidecar_policy cl svcs st y = Some st' ->
  exists S' De' G' others', docs_inv (docs ++ [y]) st' S' De' G' others'.
Proof using Hc Hk.
  intros docs st S De G others y st' I E. destruct I as [I1 I2 I3 [IS1 IS2] [ID1 ID2] [IG1 IG2] [IN1 IN2] [IP1 IP2] IA].
  destruct (sidecar_policy_inv cl svcs st y st' E) as [[-> N]|(sc & pn & O & Ep & ->)].
  { exists S, De, G, (others ++ [y]). constructor; auto.
    - rewrite app_assoc. apply Permutation_app_tail. exact I1.
    - intros y' H. apply in_app_or in H as [H|[<-|[]]]; auto. }
  destruct (object_selected y sc O) as [Po Mo]. unfold check_priority in Ep. unfold put. destruct (sc_default sc) eqn:Edf.
  - destruct (smem (sc_ns sc) (st_nss st)) eqn:En; [discriminate|]. injection Ep as <-. cbn [fst snd].
    assert (Nn : ~ In (sc_ns sc) (map (fun g => sc_ns (snd g)) (De ++ G))).
    { intros H. apply IN2 in H. apply smem_In in H. congruence. }
    destruct (String.eqb_spec (sc_ns sc) "istio-config") as [Q|Q].
    + exists S, De, (G ++ [(y, sc)]), others. constructor; cbn [st_specific st_default st_global st_nss st_peers]; auto.
      * rewrite !map_app in *. cbn [map fst].
        apply (Permutation_trans (l' := (map fst S ++ map fst De ++ map fst G) ++ others ++ [y])).
        -- rewrite <- !app_assoc. apply Permutation_app_head, Permutation_app_head, Permutation_app_head. apply Permutation_app_comm.
        -- rewrite app_assoc. apply Permutation_app_tail. rewrite <- app_assoc in *. exact I1.
      * intros g H. rewrite !in_app_iff in H. destruct H as [H|[H|[H|[<-|[]]]]]; try exact O; apply I3; rewrite !in_app_iff; auto.
      * split; [rewrite map_app, IG1; reflexivity|]. intros g H. apply in_app_or in H as [H|[<-|[]]]; auto.
      * rewrite app_assoc, map_app. cbn [map snd]. split; [apply NoDup_snoc; auto|]. intros n. rewrite !in_app_iff, IN2. tauto.
    + exists S, (De ++ [(y, sc)]), G, others. constructor; cbn [st_specific st_default st_global st_nss st_peers]; auto.
      * rewrite !map_app in *. cbn [map fst].
        apply (Permutation_trans (l' := (map fst S ++ map fst De ++ map fst G) ++ others ++ [y])).
        -- rewrite <- !app_assoc. apply Permutation_app_head, Permutation_app_head. rewrite !app_assoc.
           apply (Permutation_app_comm [y] (map fst G ++ others)).
        -- rewrite app_assoc. apply Permutation_app_tail. rewrite <- app_assoc in *. exact I1.
      * intros g H. rewrite !in_app_iff in H. destruct H as [H|[[H|[<-|[]]]|H]]; try exact O; apply I3; rewrite !in_app_iff; auto.
      * split; [rewrite map_app, ID1; reflexivity|]. intros g H. apply in_app_or in H as [H|[<-|[]]]; auto.
      * assert (P : Permutation (map (fun g => sc_ns (snd g)) (De ++ G) ++ [sc_ns sc]) (map (fun g => sc_ns (snd g)) ((De ++ [(y, sc)]) ++ G))).
        { rewrite !map_app. cbn [map snd]. rewrite <- !app_assoc. apply Permutation_app_head. apply Permutation_app_comm. }
        split; [apply (Permutation_NoDup P); apply NoDup_snoc; auto|]. intros n. rewrite in_app_iff, IN2. rewrite <- in_app_iff.
        split; [apply (Permutation_in n P)|apply (Permutation_in n (Permutation_sym P))].
  - destruct (plain_inter _ _ (pods_plain cl _ Po) (pods_plain cl _ IP1)) as (r & Er & _ & Mr). rewrite Er in Ep. cbn [bind] in Ep.
    destruct (pbool r) eqn:Er2; [discriminate|]. injection Ep as <-. cbn [fst snd].
    assert (Nr : forall q, In q (sc_selected sc) -> In q (st_peers st) -> False).
    { intros q H1 H2. pose proof (proj2 (Mr q) (conj H1 H2)) as H. destruct r; [destruct H|discriminate]. }
    exists (S ++ [(y, sc)]), De, G, others. constructor; cbn [st_specific st_default st_global st_nss st_peers]; auto.
    + rewrite !map_app in *. cbn [map fst].
      apply (Permutation_trans (l' := (map fst S ++ map fst De ++ map fst G) ++ others ++ [y])).
      * rewrite <- !app_assoc. apply Permutation_app_head. rewrite !app_assoc. apply (Permutation_app_comm [y] ((map fst De ++ map fst G) ++ others)).
      * rewrite app_assoc. apply Permutation_app_tail. rewrite <- app_assoc in *. exact I1.
    + intros g H. rewrite !in_app_iff in H. destruct H as [[H|[<-|[]]]|H]; try exact O; apply I3; rewrite !in_app_iff; auto.
    + split; [rewrite map_app, IS1; reflexivity|]. intros g H. apply in_app_or in H as [H|[<-|[]]]; auto.
    + split.
      * intros q H. apply ps_union_In in H as [H|H]; auto.
      * intros q. rewrite ps_union_In, IP2. split.
        -- intros [(g & H1 & H2)|H]; [exists g; rewrite in_app_iff; auto|]. exists (y, sc). rewrite in_app_iff. cbn. auto.
        -- intros (g & H1 & H2). apply in_app_or in H1 as [H1|[<-|[]]]; [left; exists g; auto|right; exact H2].
    + apply FOP_app. split; auto. split; [constructor; constructor|]. intros a b Ha [<-|[]] q H1 H2. apply (Nr q H2). apply IP2. exists a. auto.
Qed.
Lemma docs_fold_None : forall l, fold_left (fun acc y => bind acc (fun st => sidecar_policy cl svcs st y)) l None = None.
Proof using. induction l; cbn; auto. Qed.
Lemma docs_state : forall docs st, sidecar_docs cl svcs docs = Some st -> exists S De G others, docs_inv docs st S De G others.
Proof using Hc Hk.
  intros docs. unfold sidecar_docs. induction docs as [|y docs IH] using rev_ind; intros st E.
  - cbn in E. injection E as <-. exists [], [], [], []. constructor; cbn.
    + apply perm_nil.
    + intros y [].
    + intros g [].
    + split; [reflexivity|intros g []].
    + split; [reflexivity|intros g []].
    + split; [reflexivity|intros g []].
    + split; [constructor|intros n; reflexivity].
    + split; [intros q []|]. intros q. split; [intros []|]. intros (g & [] & _).
    + constructor.
  - rewrite fold_left_app in E. cbn [fold_left] in E.
    destruct (fold_left (fun acc y0 => bind acc (fun st0 => sidecar_policy cl svcs st0 y0)) docs (Some state0)) as [st0|] eqn:E0; [|discriminate].
    destruct (IH st0 eq_refl) as (S & De & G & others & I). exact (docs_step docs st0 S De G others y st I E).
Qed.

(** ** Removing the peers of sidecars with higher priority *)
Context {C : Type} (A : cops C) (mk : cdict -> C).
Lemma refine_None : forall l, fold_left (refine_step cl A mk) l None = None.
Proof using. induction l; cbn; auto. Qed.
Lemma refine_spec : forall l res ref res' ref', (forall sc, In sc l -> pods_only cl (sc_selected sc)) -> pods_only cl ref ->
  ForallOrdPairs (fun a b => apart (sc_selected a) (sc_selected b)) l ->
  fold_left (refine_step cl A mk) l (Some (res, ref)) = Some (res', ref') ->
  exists ks, map fst ks = l /\ (forall k, In k ks -> pods_only cl (snd k) /\ forall q, In q (snd k) <-> In q (sc_selected (fst k)) /\ ~ In q ref) /\
    (exists ps, res' = res ++ ps /\ Forall2 (fun k p => sidecar_object cl A mk (fst k) (snd k) = Some p) ks ps) /\
    pods_only cl ref' /\ forall q, In q ref' <-> In q ref \/ exists sc, In sc l /\ In q (sc_selected sc).
Proof using.
  induction l as [|sc t IH]; intros res ref res' ref' Hs Hr Ha E.
  - cbn in E. injection E as <- <-. exists []. split; auto. split; [intros k []|]. split; [exists []; rewrite app_nil_r; split; auto|]. split; auto.
    intros q. split; auto. intros [H|(sc & [] & _)]; auto.
  - cbn [fold_left] in E. destruct (refine_step cl A mk (Some (res, ref)) sc) as [[res1 ref1]|] eqn:E1; [|rewrite refine_None in E; discriminate].
    unfold refine_step in E1. cbn [bind fst snd] in E1. pose proof (Hs sc (or_introl eq_refl)) as Po.
    destruct (plain_inter _ _ (pods_plain cl _ Po) (pods_plain cl _ Hr)) as (r & Er & _ & Mr). rewrite Er in E1. cbn [bind] in E1.
    match type of E1 with bind ?e _ = _ => destruct e as [sel|] eqn:Es; [|discriminate] end. cbn [bind] in E1.
    destruct (sidecar_object cl A mk sc sel) as [p|] eqn:Ep; [|discriminate]. cbn [bind] in E1. injection E1 as <- <-.
    assert (X : pods_only cl sel /\ forall q, In q sel <-> In q (sc_selected sc) /\ ~ In q ref).
    { destruct (pbool r) eqn:Eb.
      - destruct (plain_diff _ _ (pods_plain cl _ Po) (pods_plain cl _ Hr)) as (d & Ed & _ & Md). rewrite Ed in Es. injection Es as <-.
        split; auto. intros q H. apply Md in H. apply Po. tauto.
      - injection Es as <-. split; auto. intros q. split; [|tauto]. intros H. split; auto. intros H2.
        pose proof (proj2 (Mr q) (conj H H2)) as H3. destruct r; [destruct H3|discriminate]. }
    destruct X as [Ps Ms]. inversion Ha as [|a0 t0 Ha1 Ha2]; subst. rewrite Forall_forall in Ha1.
    assert (Hr1 : pods_only cl (ps_union ref sel)) by (intros q H; apply ps_union_In in H as [H|H]; auto).
    destruct (IH (res ++ [p]) (ps_union ref sel) res' ref' (fun s H => Hs s (or_intror H)) Hr1 Ha2 E) as (ks & K1 & K2 & (ps & K3 & K4) & K5 & K6).
    exists ((sc, sel) :: ks). split; [cbn; congruence|]. split; [|split; [|split; auto]].
    + intros k [<-|Hk']; [split; auto|]. destruct (K2 k Hk') as [K2a K2b]. split; auto. intros q. rewrite K2b, ps_union_In. split; [tauto|].
      intros [H1 H2]. split; auto. intros [H3|H3]; auto. apply Ms in H3 as [H3 _].
      apply (Ha1 (fst k)) with (q := q); auto. rewrite <- K1. apply in_map. exact Hk'.
    + exists (p :: ps). split; [rewrite K3, <- app_assoc; reflexivity|]. constructor; auto.
    + intros q. rewrite K6, ps_union_In, Ms. split.
      * intros [[H|[H1 H2]]|(s & H1 & H2)]; auto; right; [exists sc|exists s]; cbn; auto.
      * intros [H|(s & [<-|H1] & H2)]; auto; [|right; exists s; auto]. left. destruct (pmem q ref) eqn:H; [left; apply pmem_In; auto|]. right. split; auto. rewrite <- pmem_In. congruence.
Qed.

(** No two Sidecars of one priority for one workload. *)
Definition no_tie (y y' : yaml) : Prop :=
  forall x r, sc_rank y r -> sc_rank y' r -> sc_selects cl y x -> sc_selects cl y' x -> False.
Lemma rank_of : forall y sc, object_of cl svcs y sc ->
  sc_rank y (if sc_default sc then if String.eqb (sc_ns sc) "istio-config" then 2 else 1 else 0).
Proof using.
  intros y sc (sp & D & E1 & _). exists (sc_name sc), (sc_ns sc), sp. split; auto. rewrite E1.
  destruct (null_cases (yget sp "workloadSelector")) as [[H1 H2]|[H1 H2]]; rewrite H1; [|tauto]. destruct (String.eqb_spec (sc_ns sc) "istio-config"); tauto.
Qed.
Lemma selects_doc : forall y x, sc_selects cl y x -> exists n s sp, sc_doc y n s sp.
Proof using. intros y x (n & s & sp & i & D & _). exists n, s, sp. exact D. Qed.
Lemma selects_pod : forall y x, sc_selects cl y x -> exists i, x = PN 0 i.
Proof using. intros y x (n & s & sp & i & D & E & _). exists i. exact E. Qed.
Lemma no_ties : forall docs st S De G others, docs_inv docs st S De G others -> ForallOrdPairs no_tie docs.
Proof using Hc Hk.
  intros docs st S De G others I. destruct I as [I1 I2 I3 [IS1 IS2] [ID1 ID2] [IG1 IG2] [IN1 IN2] [IP1 IP2] IA].
  apply (FOP_perm no_tie (fun a b H x r R1 R2 S1 S2 => H x r R2 R1 S2 S1) _ _ I1).
  assert (RS : forall g, In g S -> sc_rank (fst g) 0).
  { intros g H. assert (O : object_of cl svcs (fst g) (snd g)) by (apply I3; rewrite !in_app_iff; auto). pose proof (rank_of _ _ O) as R. rewrite (IS2 g H) in R. exact R. }
  assert (RD : forall g, In g De -> sc_rank (fst g) 1).
  { intros g H. assert (O : object_of cl svcs (fst g) (snd g)) by (apply I3; rewrite !in_app_iff; auto). pose proof (rank_of _ _ O) as R.
    destruct (ID2 g H) as [H1 H2]. rewrite H1, (proj2 (String.eqb_neq _ _) H2) in R. exact R. }
  assert (RG : forall g, In g G -> sc_rank (fst g) 2).
  { intros g H. assert (O : object_of cl svcs (fst g) (snd g)) by (apply I3; rewrite !in_app_iff; auto). pose proof (rank_of _ _ O) as R.
    destruct (IG2 g H) as [H1 H2]. rewrite H1, H2 in R. exact R. }
  assert (Dif : forall a b r r', sc_rank a r -> sc_rank b r' -> r <> r' -> no_tie a b).
  { intros a b r r' R1 R2 N x r0 T1 T2 _ _. pose proof (sc_rank_fn _ _ _ R1 T1). pose proof (sc_rank_fn _ _ _ R2 T2). congruence. }
  apply FOP_app. split; [|split].
  - apply FOP_map. rewrite !FOP_app.
    assert (NS : ForallOrdPairs (fun a b => no_tie (fst a) (fst b)) (De ++ G)).
    { assert (N : ForallOrdPairs (fun a b => sc_ns (snd a) <> sc_ns (snd b)) (De ++ G)).
      { clear - IN1. induction (De ++ G) as [|g t IH]; constructor.
        - cbn in IN1. inversion IN1; subst. apply Forall_forall. intros b Hb Q. apply H1. rewrite Q. apply (in_map (fun g => sc_ns (snd g)) t b Hb).
        - apply IH. inversion IN1; auto. }
      revert N. apply FOP_imp. intros a b Ha Hb N. apply in_app_or in Ha as [Ha|Ha]; apply in_app_or in Hb as [Hb|Hb].
      - intros x r _ _ (n & s & sp & i & D & E & _ & W & _) (n' & s' & sp' & i' & D' & E' & _ & W' & _). subst x. injection E' as <-.
        assert (O : object_of cl svcs (fst a) (snd a)) by (apply I3; rewrite !in_app_iff; auto).
        assert (O' : object_of cl svcs (fst b) (snd b)) by (apply I3; rewrite !in_app_iff; auto).
        destruct O as (t & O & _). destruct O' as (t' & O' & _). destruct (sc_doc_fn _ _ _ _ _ _ _ D O) as (_ & <- & _). destruct (sc_doc_fn _ _ _ _ _ _ _ D' O') as (_ & <- & _).
        destruct (ID2 a Ha) as [_ Na]. destruct (ID2 b Hb) as [_ Nb]. destruct W as [W|W]; [auto|]. destruct W' as [W'|W']; [auto|]. congruence.
      - apply (Dif _ _ 1 2); auto.
      - apply (Dif _ _ 2 1); auto.
      - destruct N. rewrite (proj2 (IG2 a Ha)), (proj2 (IG2 b Hb)). reflexivity. }
    apply FOP_app in NS as (NS1 & NS2 & NS3). split; [|split; [auto|]].
    + revert IA. apply FOP_imp. intros a b Ha Hb H x r _ _ S1 S2. destruct (selects_pod _ _ S1) as [i ->].
      assert (O : object_of cl svcs (fst a) (snd a)) by (apply I3; rewrite !in_app_iff; auto).
      assert (O' : object_of cl svcs (fst b) (snd b)) by (apply I3; rewrite !in_app_iff; auto).
      apply (H (Named 0 i)); [apply (proj2 (object_selected _ _ O))|apply (proj2 (object_selected _ _ O'))]; exists i; auto.
    + intros a b Ha Hb. apply in_app_or in Hb as [Hb|Hb]; [apply (Dif _ _ 0 1)|apply (Dif _ _ 0 2)]; auto.
  - clear - I2. induction others as [|y t IH]; constructor.
    + apply Forall_forall. intros b _ x r _ _ S1 _. destruct (selects_doc _ _ S1) as (n & s & sp & D). apply (I2 y (or_introl eq_refl) n s sp D).
    + apply IH. intros z H. apply I2. cbn. auto.
  - intros a b _ Hb x r _ _ _ S2. destruct (selects_doc _ _ S2) as (n & s & sp & D). apply (I2 b Hb n s sp D).
Qed.

Definition governed (docs : list yaml) (g : yaml * sidecar * peerset) (p : PolicyModel.policy (C:=C)) : Prop :=
  object_of cl svcs (fst (fst g)) (snd (fst g)) /\ sidecar_object cl A mk (snd (fst g)) (snd g) = Some p /\ pods_only cl (snd g) /\
  forall q, In q (snd g) <-> exists i, q = Named 0 i /\ governs cl docs (fst (fst g)) (PN 0 i).
Lemma mapM_obj : forall l ps, mapM (fun sc => sidecar_object cl A mk sc (sc_selected sc)) l = Some ps ->
  Forall2 (fun k p => sidecar_object cl A mk (fst k) (snd k) = Some p) (map (fun sc => (sc, sc_selected sc)) l) ps.
Proof using.
  induction l as [|a t IH]; intros ps E; cbn in E.
  - injection E as <-. constructor.
  - destruct (sidecar_object cl A mk a (sc_selected a)) as [p|] eqn:Ep; [|discriminate]. cbn [bind] in E.
    destruct (mapM _ t) as [ps0|] eqn:Et; [|discriminate]. cbn [bind] in E. injection E as <-. constructor; auto.
Qed.
(* pairing the documents with the kept peers *)
Lemma zip_with : forall (l : list (yaml * sidecar)) (ks : list (sidecar * peerset)) (ps : list (PolicyModel.policy (C:=C))) (Q : yaml * sidecar * peerset -> Prop),
  map fst ks = map snd l -> Forall2 (fun k p => sidecar_object cl A mk (fst k) (snd k) = Some p) ks ps ->
  (forall g k, In g l -> In k ks -> fst k = snd g -> Q (g, snd k)) ->
  exists gs, map fst gs = l /\ Forall2 (fun g p => sidecar_object cl A mk (snd (fst g)) (snd g) = Some p /\ Q g) gs ps.
Proof using.
  intros l. induction l as [|g t IH]; intros ks ps Q E F H.
  - destruct ks; [|discriminate]. inversion F; subst. exists []. auto.
  - destruct ks as [|k ks]; [discriminate|]. injection E as E1 E2. inversion F as [|k0 p ks0 ps0 F1 F2]; subst.
    destruct (IH ks ps0 Q E2 F2) as (gs & G1 & G2); [intros; apply H; cbn; auto|].
    exists ((g, snd k) :: gs). split; [cbn; congruence|]. constructor; auto. cbn [fst snd]. split; [congruence|apply H; cbn; auto].
Qed.
Lemma Forall2_app_r : forall {X Y} (R : X -> Y -> Prop) a b c d, Forall2 R a c -> Forall2 R b d -> Forall2 R (a ++ b) (c ++ d).
Proof using. intros. apply Forall2_app; auto. Qed.
Lemma sidecars_result : forall docs pols, sidecars_of cl svcs A mk docs = Some pols ->
  exists gs others, Permutation (map (fun g => fst (fst g)) gs ++ others) docs /\ (forall y, In y others -> forall n s sp, ~ sc_doc y n s sp) /\
    Forall2 (governed docs) gs pols /\ ForallOrdPairs no_tie docs.
Proof using Hc Hk.
  intros docs pols E. unfold sidecars_of in E. destruct (sidecar_docs cl svcs docs) as [st|] eqn:Est; [|discriminate]. cbn [bind] in E.
  destruct (docs_state docs st Est) as (S & De & G & others & I). pose proof (no_ties _ _ _ _ _ _ I) as NT.
  destruct I as [I1 I2 I3 [IS1 IS2] [ID1 ID2] [IG1 IG2] [IN1 IN2] [IP1 IP2] IA].
  assert (OB : forall g, In g (S ++ De ++ G) -> pods_only cl (sc_selected (snd g)) /\ forall q, In q (sc_selected (snd g)) <-> exists i, q = Named 0 i /\ sc_selects cl (fst g) (PN 0 i)).
  { intros g H. apply object_selected. apply I3. exact H. }
  assert (RK : forall g, In g (S ++ De ++ G) -> exists r, sc_rank (fst g) r /\ (In g S /\ r = 0 \/ In g De /\ r = 1 \/ In g G /\ r = 2)).
  { intros g H. pose proof (rank_of _ _ (I3 g H)) as R. rewrite !in_app_iff in H. destruct H as [H|[H|H]].
    - rewrite (IS2 g H) in R. exists 0. auto.
    - destruct (ID2 g H) as [H1 H2]. rewrite H1, (proj2 (String.eqb_neq _ _) H2) in R. exists 1. auto.
    - destruct (IG2 g H) as [H1 H2]. rewrite H1, H2 in R. exists 2. auto. }
  assert (FD : forall y i, In y docs -> sc_selects cl y (PN 0 i) -> exists g, fst g = y /\ In g (S ++ De ++ G)).
  { intros y i Hy Sy. apply (Permutation_in _ (Permutation_sym I1)) in Hy. apply in_app_or in Hy as [Hy|Hy].
    - apply in_map_iff in Hy as (g & G1 & G2). exists g. auto.
    - destruct (selects_doc _ _ Sy) as (n & s & sp & D). destruct (I2 y Hy n s sp D). }
  assert (IND : forall g, In g (S ++ De ++ G) -> In (fst g) docs).
  { intros g H. apply (Permutation_in _ I1). apply in_or_app. left. apply in_map. exact H. }
  (* what a sidecar keeps *)
  assert (GV : forall g r i, In g (S ++ De ++ G) -> sc_rank (fst g) r ->
    (governs cl docs (fst g) (PN 0 i) <-> In (Named 0 i) (sc_selected (snd g)) /\
       forall g' r', In g' (S ++ De ++ G) -> sc_rank (fst g') r' -> r' < r -> ~ In (Named 0 i) (sc_selected (snd g')))).
  { intros g r i Hg Rg. unfold governs. split.
    - intros (H1 & H2 & H3). split; [apply (proj2 (OB g Hg)); exists i; auto|]. intros g' r' Hg' Rg' L H. apply (proj2 (OB g' Hg')) in H as (j & Ej & H). injection Ej as <-.
      pose proof (H3 (fst g') r r' (IND g' Hg') H Rg Rg'). lia.
    - intros (H1 & H2). apply (proj2 (OB g Hg)) in H1 as (j & Ej & H1). injection Ej as <-. split; [auto|]. split; auto. intros y' r0 r' Hy' Sy' R0 R'.
      rewrite (sc_rank_fn _ _ _ Rg R0). destruct (FD y' i Hy' Sy') as (g' & <- & Hg'). destruct (le_lt_dec r r') as [L|L]; auto.
      destruct (H2 g' r' Hg' R' L). apply (proj2 (OB g' Hg')). exists i. auto. }
  unfold get_sidecars in E. match type of E with bind ?e _ = _ => destruct e as [res|] eqn:Er; [|discriminate] end. cbn [bind] in E.
  match type of E with bind ?e _ = _ => destruct e as [[res2 ref2]|] eqn:E2; [|discriminate] end. cbn [bind fst] in E. injection E as <-.
  destruct (fold_left (refine_step cl A mk) (st_default st) (Some (res, st_peers st))) as [[res1 ref1]|] eqn:E1; [|rewrite refine_None in E2; discriminate].
  apply mapM_obj in Er. rewrite <- IS1, map_map in Er.
  assert (PD : forall sc, In sc (st_default st) -> pods_only cl (sc_selected sc)).
  { intros sc H. rewrite <- ID1 in H. apply in_map_iff in H as (g & <- & H). apply OB. rewrite !in_app_iff. auto. }
  assert (PG : forall sc, In sc (st_global st) -> pods_only cl (sc_selected sc)).
  { intros sc H. rewrite <- IG1 in H. apply in_map_iff in H as (g & <- & H). apply OB. rewrite !in_app_iff. auto. }
  assert (AP : ForallOrdPairs (fun a b => apart (sc_selected (snd a)) (sc_selected (snd b))) De /\ ForallOrdPairs (fun a b => apart (sc_selected (snd a)) (sc_selected (snd b))) G).
  { pose proof (FOP_perm no_tie (fun a b H x r R1 R2 S1 S2 => H x r R2 R1 S2 S1) _ _ (Permutation_sym I1) NT) as N1.
    apply FOP_app in N1 as (N1 & _ & _). apply (FOP_map fst no_tie) in N1. rewrite !FOP_app in N1. destruct N1 as (_ & (N1 & N2 & _) & _).
    split; [revert N1|revert N2]; apply FOP_imp; intros a b Ha Hb H q Q1 Q2;
      (assert (Ia : In a (S ++ De ++ G)) by (rewrite !in_app_iff; auto)); (assert (Ib : In b (S ++ De ++ G)) by (rewrite !in_app_iff; auto));
      apply (proj2 (OB a Ia)) in Q1 as (i & -> & Q1); apply (proj2 (OB b Ib)) in Q2 as (j & Ej & Q2); injection Ej as <-.
    - pose proof (rank_of _ _ (I3 a Ia)) as Ra. pose proof (rank_of _ _ (I3 b Ib)) as Rb. destruct (ID2 a Ha) as [A1 A2]. destruct (ID2 b Hb) as [B1 B2].
      rewrite A1, (proj2 (String.eqb_neq _ _) A2) in Ra. rewrite B1, (proj2 (String.eqb_neq _ _) B2) in Rb. apply (H _ 1 Ra Rb Q1 Q2).
    - pose proof (rank_of _ _ (I3 a Ia)) as Ra. pose proof (rank_of _ _ (I3 b Ib)) as Rb. destruct (IG2 a Ha) as [A1 A2]. destruct (IG2 b Hb) as [B1 B2].
      rewrite A1, A2 in Ra. rewrite B1, B2 in Rb. apply (H _ 2 Ra Rb Q1 Q2). }
  destruct AP as [AD AG].
  assert (AD' : ForallOrdPairs (fun a b => apart (sc_selected a) (sc_selected b)) (st_default st)) by (rewrite <- ID1; apply FOP_map; exact AD).
  assert (AG' : ForallOrdPairs (fun a b => apart (sc_selected a) (sc_selected b)) (st_global st)) by (rewrite <- IG1; apply FOP_map; exact AG).
  destruct (refine_spec _ _ _ _ _ PD IP1 AD' E1) as (kd & D1 & D2 & (psd & D3 & D4) & D5 & D6).
  destruct (refine_spec _ _ _ _ _ PG D5 AG' E2) as (kg & G1 & G2 & (psg & G3 & G4) & G5 & G6).
  set (Q := fun g : yaml * sidecar * peerset => object_of cl svcs (fst (fst g)) (snd (fst g)) /\ pods_only cl (snd g) /\
    forall q, In q (snd g) <-> exists i, q = Named 0 i /\ governs cl docs (fst (fst g)) (PN 0 i)).
  assert (QI : forall g s r, In g (S ++ De ++ G) -> sc_rank (fst g) r -> pods_only cl s ->
    (forall q, In q s <-> In q (sc_selected (snd g)) /\ forall g' r', In g' (S ++ De ++ G) -> sc_rank (fst g') r' -> r' < r -> ~ In q (sc_selected (snd g'))) -> Q (g, s)).
  { intros g s r Hg Rg Ps Ms. split; [apply I3; auto|]. split; auto. cbn [fst snd]. intros q. split.
    - intros H. destruct (Ps q H) as (_ & i & ->). exists i. split; auto. apply (GV g r i Hg Rg). apply Ms. exact H.
    - intros (i & -> & H). apply Ms. apply (GV g r i Hg Rg). exact H. }
  assert (R0 : forall g, In g S -> sc_rank (fst g) 0).
  { intros g H. pose proof (rank_of _ _ (I3 g ltac:(rewrite !in_app_iff; auto))) as R. rewrite (IS2 g H) in R. exact R. }
  assert (R1 : forall g, In g De -> sc_rank (fst g) 1).
  { intros g H. pose proof (rank_of _ _ (I3 g ltac:(rewrite !in_app_iff; auto))) as R. destruct (ID2 g H) as [H1 H2]. rewrite H1, (proj2 (String.eqb_neq _ _) H2) in R. exact R. }
  assert (R2 : forall g, In g G -> sc_rank (fst g) 2).
  { intros g H. pose proof (rank_of _ _ (I3 g ltac:(rewrite !in_app_iff; auto))) as R. destruct (IG2 g H) as [H1 H2]. rewrite H1, H2 in R. exact R. }
  destruct (zip_with S (map (fun g => (snd g, sc_selected (snd g))) S) res Q) as (gs0 & Z1 & Z2).
  { rewrite map_map. apply map_ext. reflexivity. }
  { exact Er. }
  { intros g k Hg Hk' Ek. apply in_map_iff in Hk' as (g2 & <- & Hg2). cbn [fst snd] in *.
    assert (Hi : In g (S ++ De ++ G)) by (rewrite !in_app_iff; auto). apply (QI g _ 0 Hi (R0 g Hg)); rewrite Ek; [apply (OB g Hi)|].
    intros q. split; [|tauto]. intros H. split; auto. intros; lia. }
  destruct (zip_with De kd psd Q) as (gs1 & Y1 & Y2); [congruence|exact D4| |].
  { intros g k Hg Hk' Ek. assert (Hi : In g (S ++ De ++ G)) by (rewrite !in_app_iff; auto). destruct (D2 k Hk') as [K1 K2].
    apply (QI g _ 1 Hi (R1 g Hg) K1). intros q. rewrite K2, Ek. split; intros [H1 H2]; (split; [exact H1|]).
    - intros g' r' Hg' Rg' L H. apply H2. apply IP2. exists g'. split; auto. destruct (RK g' Hg') as (r0 & T1 & T2). rewrite (sc_rank_fn _ _ _ Rg' T1) in T2. destruct T2 as [[T2 _]|[[_ T2]|[_ T2]]]; [auto|lia|lia].
    - intros H. apply IP2 in H as (g' & H3 & H4). apply (H2 g' 0); auto. rewrite !in_app_iff. auto. }
  destruct (zip_with G kg psg Q) as (gs2 & X1 & X2); [congruence|exact G4| |].
  { intros g k Hg Hk' Ek. assert (Hi : In g (S ++ De ++ G)) by (rewrite !in_app_iff; auto). destruct (G2 k Hk') as [K1 K2].
    apply (QI g _ 2 Hi (R2 g Hg) K1). intros q. rewrite K2, Ek. split; intros [H1 H2]; (split; [exact H1|]).
    - intros g' r' Hg' Rg' L H. apply H2. apply D6. destruct (RK g' Hg') as (r0 & T1 & T2). rewrite (sc_rank_fn _ _ _ Rg' T1) in T2. destruct T2 as [[T2 _]|[[T2 _]|[_ T2]]]; [| |lia].
      + left. apply IP2. exists g'. auto.
      + right. exists (snd g'). split; auto. rewrite <- ID1. apply in_map. exact T2.
    - intros H. apply D6 in H as [H|(sc & H3 & H4)].
      + apply IP2 in H as (g' & H3 & H4). apply (H2 g' 0); auto. rewrite !in_app_iff. auto.
      + rewrite <- ID1 in H3. apply in_map_iff in H3 as (g' & <- & H3). apply (H2 g' 1); auto. rewrite !in_app_iff. auto. }
  exists (gs0 ++ gs1 ++ gs2), others. split; [|split; [exact I2|split; [|exact NT]]].
  - rewrite <- (map_map fst fst). rewrite !map_app, Z1, Y1, X1, <- !map_app. exact I1.
  - assert (CV : forall gs ps, Forall2 (fun g p => sidecar_object cl A mk (snd (fst g)) (snd g) = Some p /\ Q g) gs ps -> Forall2 (governed docs) gs ps).
    { intros gs ps F. induction F as [|g p gs' ps' F1 F2 IH]; constructor; auto. unfold governed, Q in *. tauto. }
    rewrite G3, D3, <- app_assoc. apply Forall2_app; [apply CV; exact Z2|]. apply Forall2_app; apply CV; [exact Y2|exact X2].
Qed.
End Docs.
