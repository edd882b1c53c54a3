(** * From topology and policy documents to the allowed connections (C59): the cluster of PropTopology.v meets the conditions of C56. *)
From Coq Require Import ZArith List Bool Arith Lia String Ascii Permutation.
From Verif Require Import IntervalModel IntervalFacts HyperModel HyperFacts HyperOps HyperDims HyperTop HyperInst
                          PropHyperCube ConnModel ConnFacts TextModel TextFacts PortProtoModel PortProtoFacts PeerModel PeerFacts PeerSetFacts
                          PolicyModel PolicyLaws PolicyFacts LayerFacts OrderFacts ConnAlg StdDims PropLayers YamlModel ClusterModel K8sParserModel SelectorFacts
                          ConnDict NamedExcl PropSelectors K8sParserFacts PropK8sParser CalicoSelectorModel CalicoSelectorFacts CalicoSelectorGram
                          CalicoSelectorSets CalicoParserModel CalicoParserFacts CalicoRuleFacts PropCalicoParser
                          IstioValueModel PropIstioValues IstioParserModel IstioParserFacts IstioRuleFacts PropIstioParser ServiceModel PropServices SidecarModel
                          SidecarFacts SidecarEgressFacts PropSidecar TopologyModel TopologyFacts TopologyDocs TopologyLoad PropTopology.
Import ListNotations.
Local Open Scope string_scope.
Local Open Scope list_scope.
Local Open Scope nat_scope.
Local Opaque min_pod_index max_pod_index min_ipv6_index max_ipv6_index max_ipv4_index v4max v6min v6max.

(** Conditions on the topology documents: the names of namespaces are not empty and have no star (Kubernetes names never do), port numbers are in range,
    names of services have no dot. *)
Definition namespace_names_ok (docs : list yaml) : Prop :=
  forall y os k m md t, In y docs -> listing "" y os -> In (k, m) os -> map_at m "metadata" md -> text_at md "namespace" "default" t -> t <> "" /\ ~ In "*"%char (text t).
Record topology_ok (docs : list yaml) : Prop := {
  tk_ns : namespace_names_ok docs;
  tk_ports : forall n, port_entry docs n -> (1 <= n <= 65535)%Z;
  tk_services : forall y s, In y (flat_map services_in docs) -> parse_service y = Some (Some s) -> has_char "." (ks_name s) = false
}.
Definition loads (docs : list yaml) (st : tstate) : Prop := load_resources docs = Some st \/ exists nsdocs, load_lists nsdocs docs = Some st.

Section FromDocuments.
Context (docs : list yaml) (st : tstate) (L : loads docs st) (T : topology_ok docs).
Notation cl := (cluster_of st).
Lemma is_loaded : loaded st.
Proof using L. destruct L as [H|(nsdocs & H)]; [left|right]; eauto. Qed.
Lemma services_usable : forall svcs, services_of st = Some svcs -> services_ok cl svcs.
Proof using L T.
  intros svcs S. destruct (C58_cluster_usable st is_loaded) as (Hc & _). apply (C57_services_usable cl Hc _ _ S). intros s Hs.
  assert (X : forall ys l, services_read_as ys l -> In s l -> exists y, In y ys /\ parse_service y = Some (Some s)).
  { clear. intros ys l H. induction H as [|y s' ys l P H IH|y ys l P H IH]; cbn; [tauto| |].
    - intros [->|I]; [exists y; auto|]. destruct (IH I) as (z & Z1 & Z2). exists z. auto.
    - intros I. destruct (IH I) as (z & Z1 & Z2). exists z. auto. }
  destruct (X _ _ (services_of_documents docs st L) Hs) as (y & Hy & E). exact (tk_services _ T y s Hy E).
Qed.
Lemma names_usable : forall nss, incl (map fst (ts_nss st)) nss -> namespaces_ok cl nss.
Proof using L T.
  intros nss I q n Hq En. destruct (cluster_peers st q Hq) as (e & He & ->). destruct (C58_attributes st is_loaded e He) as (_ & _ & _ & E & _). rewrite E in En. clear E.
  destruct (e_ns e) as [x|] eqn:Ex; [|discriminate]. injection En as <-.
  assert (X : exists l, incl (ts_peers st) l /\ exists V, declared (fun d t n => V d t n /\ assoc_s t (ts_nss st) <> None) docs l /\ forall d t n, V d t n -> n_name n = (if String.eqb t "" then "default" else t)).
  { destruct L as [H|(nsdocs & H)]; [destruct (resources_read docs st H) as (l & D & R & _)|destruct (lists_read nsdocs docs st H) as (l & D & R & _)]; exists l; (split;
      [intros z Hz; destruct (rg_source _ _ _ R z Hz) as (l1 & l2 & -> & _); apply in_or_app; right; left; auto|]); [exists so_far|exists (given nsdocs)]; split; auto; intros d; apply ns_of_name. }
  destruct X as (l & Il & V & D & VN). destruct (declared_ns _ _ _ D e x (Il e He) Ex) as (pre & y & post & t & E & (os & k & m & le & md & P1 & P2 & _ & _ & _ & P3 & P4 & P5 & P6)).
  assert (Hy : In y docs) by (rewrite E; apply in_or_app; right; left; auto).
  destruct (tk_ns _ T y os k m md t Hy P1 P2 P3 P4) as [N1 N2]. assert (Q : n_name x = t) by (rewrite (VN _ _ _ P5); destruct (String.eqb_spec t ""); congruence).
  rewrite Q. split; [auto|]. apply I. destruct (assoc_s t (ts_nss st)) as [w|] eqn:Ew; [|congruence]. apply assoc_In in Ew. apply (in_map fst) in Ew. exact Ew.
Qed.
(** The registry: the peers are added to the registry of all peers (BasePeerSet.add_peer, called by _add_peer); it can hold peers of other configurations. *)
Context (reg0 reg : list peer) (R0 : reg_ok reg0) (RG : register reg0 (cl_peers cl) = Some reg).
Lemma registry_usable : reg_ok reg /\ container reg (cl_peers cl).
Proof using L R0 RG.
  destruct (register_ok _ _ _ R0 RG) as (R & I & _). split; auto. intros q Hq. destruct (C58_cluster_usable st is_loaded) as (Hc & _). pose proof (cluster_plain cl Hc q Hq) as B.
  destruct (Hc q Hq) as (k & n & -> & _). split; [|reflexivity]. apply I. right. auto.
Qed.
Let R : reg_ok reg := proj1 registry_usable.
Let A := cube_ops std_dom std_all reg.
Notation space := (a_space std_dom).
Notation from := (a_src reg).
Notation to := (a_dst reg).
Notation mk := (conns_of std_dom reg (cl_ports cl)).
Context (svcs : list service) (SV : services_of st = Some svcs).
Context (net : yaml -> option cidr) (Hnet : forall y c, net y = Some c -> cidr_ok c) (Hempty : net (YStr "") = None).
Context (code : word -> Z) (dfa : list ascii -> val) (CO : code_ok code).
(** Policies can add namespaces. *)
Context (nss : list string) (NI : incl (map fst (ts_nss st)) nss).
Notation sa := (account_of st).
Notation profiles := (profiles_of st).
Context (kdocs : list document) (kpols : list policy) (KF : Forall2 (fun d p => parse_doc reg cl net profiles d = Some (Some p)) kdocs kpols).
Context (KB : forall d, In d kdocs -> doc_benign reg cl net profiles d).
Context (adocs : list yaml) (apols : list policy) (AF : Forall2 (fun y p => istio_policy cl net sa (val_ops std_dom) dfa A mk (hall Conn) nss y = Some (Some p)) adocs apols).
Context (AB : forall y, In y adocs -> benign_ap cl sa code dfa y).
Context (sdocs : list yaml) (spols : list policy) (SF : sidecars_of cl svcs A mk sdocs = Some spols) (SB : forall y, In y sdocs -> benign_sc cl svcs y).
Context (added : list policy) (AP : Permutation (kpols ++ apols) added).
Context (ND : NoDup (map (fun p => (full_name p, p_kind p)) (added ++ spols))).
Notation cont := (add_all pcont_init (added ++ spols)).
(** Between pods, and between pods and addresses: exactly the connections that the policy documents allow, read with the labels, namespaces, named ports,
    service accounts and services of the topology documents. *)
Theorem C59_from_documents :
  exists sorted, Permutation kdocs sorted /\
    (forall i j d e o o', i <= j -> nth_error sorted i = Some d -> nth_error sorted j = Some e -> doc_order d o -> doc_order e o' -> rank_le o o') /\
    (no_pass_docs kdocs \/ docs_not_shadowed reg cl net profiles sorted ->
     (forall pt h w, space pt -> words_at code pt h w -> PropIstioParser.endpoint cl (from pt) -> PropIstioParser.endpoint cl (to pt) -> ~ (is_addr (from pt) /\ is_addr (to pt)) ->
      (pt @ all_allowed (config_conns A (cl_peers cl) (lays cont) only_all_allowed) <->
       doc_side reg cl net profiles sorted true pt /\ doc_side reg cl net profiles sorted false pt /\ istio_says reg cl svcs net sa adocs sdocs pt h w)) /\
     (* TCP from pods to external names, as in C56 *)
     (forall pt, space pt -> pt 2 = 6%Z -> member (cl_peers cl) (from pt) /\ ~ named_dns (from pt) -> member (cl_peers cl) (to pt) /\ named_dns (to pt) ->
      (pt @ all_allowed (config_conns A (cl_peers cl) (lays cont) only_all_allowed) <->
       doc_side reg cl net profiles sorted true pt /\ doc_side reg cl net profiles sorted false pt /\
       (exists x, (member (cl_peers cl) x /\ ~ named_dns x) /\ forall y, In y adocs -> ap_action y Allow -> ~ ap_selects cl y x) /\
       sidecars_say cl svcs sdocs (from pt) (to pt)))).
Proof using L T R0 RG SV Hnet Hempty CO NI KF KB AF AB SF SB AP ND.
  destruct (C58_cluster_usable st is_loaded) as (Hc & Hk & _).
  destruct (C56_documents_of_all_layers reg R cl Hc Hk (proj2 registry_usable) (C58_port_numbers docs st L (tk_ports _ T)) svcs (services_usable svcs SV) net Hnet sa code dfa CO nss (names_usable nss NI) Hempty profiles
    kdocs kpols KF KB adocs apols AF AB sdocs spols SF SB added AP ND) as (sorted & P & O & M).
  exists sorted. split; [exact P|]. split; [exact O|]. exact M.
Qed.
End FromDocuments.
Print Assumptions C59_from_documents.
