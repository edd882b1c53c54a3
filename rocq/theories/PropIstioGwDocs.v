(** * C69: what the documents of Istio Gateways and VirtualServices say is what the policies made of them allow. *)
From Coq Require Import ZArith List Bool Arith Lia String Ascii.
From Verif Require Import IntervalModel IntervalFacts HyperModel HyperFacts HyperOps HyperDims HyperTop HyperInst PropHyperCube ConnModel ConnFacts TextModel PortProtoModel
                          PeerModel PeerFacts PeerSetFacts PolicyModel PolicyLaws PolicyFacts LayerFacts OrderFacts ConnAlg StdDims PropLayers YamlModel ClusterModel ConnDict
                          SelectorFacts CalicoSelectorSets PropSelectors K8sParserModel K8sParserFacts CalicoSelectorModel CalicoParserModel IstioValueModel PropIstioValues IstioRuleFacts IstioParserModel PropIstioParser
                          ServiceModel PropServices SidecarModel SidecarEgressFacts IngressModel IngressWords PropIngressPaths GatewayFacts IngressFacts IngressDocs PropIngress
                          IstioGwModel IstioGwFacts PropIstioGw IstioGwDocs IstioVsDocs IstioVsRoutes.
Import ListNotations.
Local Open Scope string_scope.
Local Open Scope list_scope.
Local Open Scope nat_scope.
Local Opaque min_pod_index max_pod_index min_ipv6_index max_ipv6_index max_ipv4_index v4max v6min v6max.

Section Docs.
Context (reg : list peer) (R : reg_ok reg) (cl : cluster) (Hc : cluster_ok cl) (HC : container reg (cl_peers cl)).
Context (Hp : forall p nm n pr, assoc_s nm (cl_ports cl p) = Some (n, pr) -> (1 <= n <= 65535)%Z).
Context (ks : list k8s_service) (svcs : list service) (HS : set_services cl ks = Some svcs) (SF : services_fine ks).
Context (code : word -> Z) (dfa : list ascii -> val) (CO : code_ok code) (C0 : code [] = 0%Z).
Context (rematch : list ascii -> list ascii -> bool).
Context (RM : forall l name t name', l <> [] -> In name all_methods -> text name = l ++ t -> In name' all_methods ->
  rematch l (text name') = starts_with l (text name') /\ rematch (l ++ allowed_chars ++ ["*"%char]) (text name') = starts_with l (text name')).
Context (gdocs vdocs : list yaml) (gs : list gateway) (vss : list vservice).
Context (Eg : istio_gateways std_dom cl dfa gdocs = Some (Some gs)) (Ev : virtual_services std_dom cl ks svcs dfa rematch vdocs = Some (Some vss)).
(** The documents are outside the findings. *)
Context (GB : forall y name ns sel servers eg, In y gdocs -> gateway_doc cl y name ns sel servers eg -> hosts_benign code dfa (all_server_hosts servers)).
Context (VB : forall y name ns sp, In y vdocs -> vs_doc y name ns sp -> vs_benign code dfa ns sp).
Let K := std_alg reg R.
Let A := cube_ops std_dom std_all reg.
Notation space := (a_space std_dom).
Notation from := (a_src reg).
Notation to := (a_dst reg).

(** ** What is meant *)
(** A workload with the labels of the selector. *)
Definition labelled (sel : dict) (x : point) : Prop := exists k i, x = PN k i /\ has_labels cl sel (Named k i).
(** A route of a VirtualService that a Gateway of this kind serves, for requests with this host, path and method; later documents of a name
    take the place of earlier ones. *)
Definition doc_serves (eg : bool) (sel : dict) (ns : string) (e : yaml) (h w : word) (me : Z) : Prop :=
  exists gy gname gns servers vy vname sp k,
    chosen (gateway_key cl) gdocs gy (slash_name gns gname) /\ gateway_doc cl gy gname gns sel servers eg /\
    chosen vs_key vdocs vy (slash_name ns vname) /\ vs_doc vy vname ns sp /\ In e (entries sp k) /\
    route_takes ns sp k e (slash_name gns gname) h w me /\ hosts_say (all_server_hosts servers) h /\ hosts_say (host_list sp) h.
(** A workload of the Gateway sends the request to a destination of the route. *)
Definition doc_route (eg : bool) (pt : conn) (h w : word) : Prop :=
  exists sel ns e de, doc_serves eg sel ns e h w (pt 5) /\ labelled sel (from pt) /\ pt 2 = 6%Z /\ In de (dest_items e) /\ dest_at cl ks ns de (to pt) (pt 4).
(** A route of a VirtualService takes the request in the mesh and sends it to the egress gateway. *)
Definition egress_host : string := "istio-egressgateway.istio-system.svc.cluster.local".
Definition doc_sends (ns : string) (de : yaml) (h w : word) (me : Z) : Prop :=
  exists vy vname sp k e num, chosen vs_key vdocs vy (slash_name ns vname) /\ vs_doc vy vname ns sp /\ In e (entries sp k) /\
    route_takes ns sp k e "mesh" h w me /\ In de (dest_items e) /\ dest_entry de egress_host num.
Definition doc_enters (pt : conn) (h w : word) : Prop :=
  pt_in (from pt) (all_group cl) /\ pt 2 = 6%Z /\ exists ns de, doc_sends ns de h w (pt 5) /\ dest_at cl ks ns de (to pt) (pt 4).
(** Wildcards of hosts and prefixes of paths are read in one way. *)
Definition fair (h w : word) : Prop :=
  (forall y name ns sel servers eg, In y gdocs -> gateway_doc cl y name ns sel servers eg -> fair_for (all_server_hosts servers) h) /\
  forall y name ns sp, In y vdocs -> vs_doc y name ns sp -> fair_for (host_list sp) h /\ forall k e, In e (entries sp k) -> fair_route k e w.
(** There is no Gateway of the egress kind. *)
Definition no_egress : Prop := forall y name ns sel servers, In y gdocs -> ~ gateway_doc cl y name ns sel servers true.

(** ** The lists of the parsers *)
Lemma gdocs_fold : fold_left (fun acc y => bind acc (fun gs => parse_gateway std_dom cl dfa gs y)) gdocs (Some []) = Some gs.
Proof using Eg. clear GB. unfold istio_gateways in Eg. destruct gdocs as [|y t]; [discriminate|]. destruct (fold_left _ (y :: t) (Some [])); [|discriminate]. cbn [option_map] in Eg. congruence. Qed.
Lemma vdocs_fold : fold_left (fun acc y => bind acc (fun l => parse_virtual_service std_dom cl ks svcs dfa rematch l y)) vdocs (Some []) = Some vss.
Proof using Ev. clear VB. unfold virtual_services in Ev. destruct vdocs as [|y t]; [discriminate|]. destruct (fold_left _ (y :: t) (Some [])); [|discriminate]. cbn [option_map] in Ev. congruence. Qed.
Lemma chosen_In : forall D docs y k, chosen D docs y k -> In y docs.
Proof using. intros D docs y k (a & b & -> & _). apply in_or_app. right. left. reflexivity. Qed.
(** A gateway and its document. *)
Definition gateway_from (gy : yaml) (gname gns : string) (sel : dict) (servers : list yaml) (eg : bool) (g : gateway) : Prop :=
  In g gs /\ chosen (gateway_key cl) gdocs gy (slash_name gns gname) /\ gateway_doc cl gy gname gns sel servers eg /\ gw_name g = slash_name gns gname /\ gw_egress g = eg /\
  of_cluster cl (gw_peers g) /\ (forall q, In q (gw_peers g) <-> has_labels cl sel q) /\ holds code (fair_for (all_server_hosts servers)) (gw_hosts g) (hosts_say (all_server_hosts servers)).
Definition service_from (vy : yaml) (vname vns : string) (sp : dict) (vs : vservice) : Prop :=
  In vs vss /\ chosen vs_key vdocs vy (slash_name vns vname) /\ vs_doc vy vname vns sp /\ vs_made code cl ks vns sp vs.
Lemma gateway_read : forall g, In g gs -> exists gy gname gns sel servers, gateway_from gy gname gns sel servers (gw_egress g) g.
Proof using CO C0 Hc Eg GB.
  intros g Hg. destruct (gateways_read code dfa CO C0 cl Hc gdocs gs gdocs_fold) as (_ & G & _). destruct (G g Hg) as (gy & Cg & (name & ns & sel & servers & eg & D & N1 & N2 & N3 & N4 & N5)).
  exists gy, name, ns, sel, servers. rewrite N2. split; auto. split; [rewrite <- N1; exact Cg|]. split; auto. split; auto. split; auto. split; auto. split; auto. apply N5. apply (GB gy name ns sel servers eg); auto. exact (chosen_In _ _ _ _ Cg).
Qed.
Lemma gateway_written : forall gy gname gns sel servers eg, chosen (gateway_key cl) gdocs gy (slash_name gns gname) -> gateway_doc cl gy gname gns sel servers eg -> exists g, gateway_from gy gname gns sel servers eg g.
Proof using CO C0 Hc Eg GB.
  intros gy gname gns sel servers eg Cg D. destruct (gateways_read code dfa CO C0 cl Hc gdocs gs gdocs_fold) as (_ & _ & G).
  destruct (G gy _ Cg) as (g & Hg & _ & (name & ns & sel' & servers' & eg' & D' & N1 & N2 & N3 & N4 & N5)). destruct (gateway_doc_fn _ _ _ _ _ _ _ _ _ _ _ _ D D') as (-> & -> & -> & -> & ->).
  exists g. split; auto. split; auto. split; auto. split; auto. split; auto. split; auto. split; auto. apply N5. apply (GB gy gname gns sel servers eg); auto. exact (chosen_In _ _ _ _ Cg).
Qed.
Lemma service_read : forall vs, In vs vss -> exists vy vname vns sp, service_from vy vname vns sp vs.
Proof using CO C0 RM Hc HS SF Ev VB.
  intros vs Hv. destruct (services_read code dfa CO C0 rematch RM cl Hc ks svcs HS SF vdocs vss vdocs_fold) as (_ & G & _). destruct (G vs Hv) as (vy & Cv & (name & ns & sp & D & N1 & N2)).
  exists vy, name, ns, sp. split; auto. split; [rewrite <- N1; exact Cv|]. split; auto. apply N2. apply (VB vy name ns sp); auto. exact (chosen_In _ _ _ _ Cv).
Qed.
Lemma service_written : forall vy vname vns sp, chosen vs_key vdocs vy (slash_name vns vname) -> vs_doc vy vname vns sp -> exists vs, service_from vy vname vns sp vs.
Proof using CO C0 RM Hc HS SF Ev VB.
  intros vy vname vns sp Cv D. destruct (services_read code dfa CO C0 rematch RM cl Hc ks svcs HS SF vdocs vss vdocs_fold) as (_ & _ & G).
  destruct (G vy _ Cv) as (vs & Hv & _ & (name & ns & sp' & D' & N1 & N2)). destruct (istio_doc_fn _ _ _ _ _ _ _ _ D D') as (-> & -> & ->).
  exists vs. split; auto. split; auto. split; auto. apply N2. apply (VB vy vname vns sp); auto. exact (chosen_In _ _ _ _ Cv).
Qed.
Lemma C69_gateways_good : NoDup (map gw_name gs) /\ forall g, In g gs -> gw_good cl g.
Proof using CO C0 Hc Eg GB.
  split; [exact (proj1 (gateways_read code dfa CO C0 cl Hc gdocs gs gdocs_fold))|]. intros g Hg. destruct (gateway_read g Hg) as (gy & gn & gns & sel & servers & _ & _ & _ & _ & _ & N3 & _ & N4). split; [exact (proj1 N4)|exact N3].
Qed.
Lemma C69_services_good : forall vs, In vs vss -> vs_good cl vs.
Proof using CO C0 RM Hc HS SF Ev VB. intros vs Hv. destruct (service_read vs Hv) as (vy & vn & vns & sp & _ & _ & _ & M). exact (proj1 M). Qed.
Lemma names_same : forall vs r, names_for vs r = names_of (vs_gateways vs) (rt_gateways r).
Proof using. intros vs r. unfold names_for, names_of. destruct (rt_gateways r); reflexivity. Qed.
Lemma not_mesh : forall a b, slash_name a b <> "mesh".
Proof using. intros a b E. assert (U : unscoped "mesh") by (intros [H|[H|[H|[H|[]]]]]; discriminate). rewrite <- E in U. exact (scoped_has a b U). Qed.
Lemma labelled_in : forall sel s, of_cluster cl s -> (forall q, In q s <-> has_labels cl sel q) -> forall x, pt_in x s <-> labelled sel x.
Proof using.
  intros sel s [P _] M x. rewrite (plain_pt s x P). unfold labelled. split.
  - intros (q & Hq & k & i & -> & ->). exists k, i. split; auto. apply M. exact Hq.
  - intros (k & i & -> & H). exists (Named k i). split; [apply M; exact H|]. eauto.
Qed.

(** ** Routes *)
Lemma route_bound : forall gy gname gns sel servers eg g vy vname vns sp vs k e r h w me, gateway_from gy gname gns sel servers eg g -> service_from vy vname vns sp vs ->
  In e (entries sp k) -> route_of code cl ks (host_list sp) vns sp (vs_gateways vs) k e r -> fair h w ->
  (bound vs r g (code h) /\ opt (val_mem (code w)) (rt_uri r) /\ opt (mem me) (rt_methods r) <->
   route_takes vns sp k e (slash_name gns gname) h w me /\ hosts_say (all_server_hosts servers) h /\ hosts_say (host_list sp) h).
Proof using.
  intros gy gname gns sel servers eg g vy vname vns sp vs k e r h w me (Hg & Cg & Dg & N1 & N2 & N3 & N4 & N5) (Hv & Cv & Dv & Mv) He Ro [F1 F2].
  destruct (F2 vy vname vns sp (chosen_In _ _ _ _ Cv) Dv) as [Fh Fr]. specialize (Fr k e He). pose proof (F1 gy gname gns sel servers eg (chosen_In _ _ _ _ Cg) Dg) as Fg.
  destruct Ro as (_ & _ & Ro). specialize (Ro (slash_name gns gname) h w me Fh Fr). destruct Mv as (_ & Mh & _). specialize (Mh h Fh). pose proof (proj2 N5 h Fg) as Mg.
  unfold bound. rewrite N1, names_same. rewrite <- Ro, <- Mg, <- Mh. pose proof (not_mesh gns gname). tauto.
Qed.
Theorem C69_routes : forall pt h w, pt 6 = code h -> pt 7 = code w -> fair h w ->
  (leaves reg cl gs vss pt <-> exists eg, (eg = true -> way_out gs vss) /\ doc_route eg pt h w).
Proof using CO C0 RM Hc HS SF Eg Ev GB VB.
  intros pt h w Eh Ew F. split.
  - intros (eg & vs & r & g & Ac & (Hv & Hr & Hg & Ee & _) & (Pf & Bd & (Tc & Ru & Rm) & d & Hd & Pd & Dd)).
    destruct (gateway_read g Hg) as (gy & gname & gns & sel & servers & G). rewrite Ee in G. destruct (service_read vs Hv) as (vy & vname & vns & sp & S).
    assert (S' := S). destruct S' as (_ & Cv & Dv & Mv). destruct Mv as (_ & _ & _ & Mr & _). destruct (Mr r Hr) as (k & e & He & Ro). exists eg. split; [exact Ac|].
    rewrite Eh in Bd. rewrite Ew in Ru. destruct (proj1 (route_bound _ _ _ _ _ _ _ _ _ _ _ _ _ _ _ h w (pt 5) G S He Ro F) (conj Bd (conj Ru Rm))) as (T & H1 & H2).
    destruct Ro as (_ & Ds & _). destruct Ds as (Ds & _). destruct (Ds d Hd) as (de & Hde & Dof). destruct G as (_ & Cg & Dg & _ & _ & N3 & N4 & _).
    exists sel, vns, e, de. split; [exists gy, gname, gns, servers, vy, vname, sp, k; auto 10|]. split; [apply (labelled_in sel _ N3 N4); exact Pf|]. split; [exact Tc|]. split; [exact Hde|].
    destruct Dof as (_ & _ & _ & Dof). apply Dof. split; [exact Pd|exact Dd].
  - intros (eg & Ac & sel & ns & e & de & (gy & gname & gns & servers & vy & vname & sp & k & Cg & Dg & Cv & Dv & He & T & H1 & H2) & Lf & Tc & Hde & Da).
    destruct (gateway_written _ _ _ _ _ _ Cg Dg) as (g & G). destruct (service_written _ _ _ _ Cv Dv) as (vs & S).
    assert (S' := S). destruct S' as (Hv & _ & _ & Mv). destruct Mv as (_ & _ & _ & _ & Mr). destruct (Mr k e He) as [(r & Hr & Ro)|[-> Em]].
    2:{ cbn [route_takes] in T. destruct T as (it & Hit & _). rewrite Em in Hit. destruct Hit. }
    destruct (proj2 (route_bound _ _ _ _ _ _ _ _ _ _ _ _ _ _ _ h w (pt 5) G S He Ro F) (conj T (conj H1 H2))) as (Bd & Ru & Rm). destruct G as (Hg & _ & _ & _ & Ee & N3 & N4 & _).
    destruct Ro as (_ & (_ & _ & Ds) & _). destruct (Ds de Hde) as [(d & Hd & Dof)|Np].
    2:{ exfalso. apply (Np (to pt)). destruct Da as (host & num & D1 & D2). exists host, num. split; auto. destruct D2 as [(k' & pods & p & X1 & X2 & X3 & _)|[X _]]; [left; exists k', pods; auto|right; exact X]. }
    exists eg, vs, r, g. split; [exact Ac|]. split; [split; auto; split; auto; split; auto; split; [exact Ee|exists (code h); exact Bd]|].
    split; [apply (labelled_in sel _ N3 N4); exact Lf|]. split; [rewrite Eh; exact Bd|]. split; [split; [exact Tc|]; rewrite Ew; auto|].
    exists d. split; [exact Hd|]. destruct Dof as (_ & _ & _ & Dof). apply Dof in Da. exact Da.
Qed.
Lemma egress_local : forall ns, local_host ns egress_host "istio-egressgateway" "istio-system".
Proof using. intros ns. apply local_service_spec. reflexivity. Qed.
Theorem C69_entrances : forall pt h w, pt 6 = code h -> pt 7 = code w -> fair h w ->
  (comes_in reg cl gs vss pt <-> way_out gs vss /\ doc_enters pt h w).
Proof using CO C0 RM Hc HS SF Eg Ev GB VB.
  intros pt h w Eh Ew [F1 F2]. unfold comes_in, doc_enters, entrance, into_gateway, enters. split.
  - intros (Wo & vs & r & d & (Hv & Hr & Hm & _ & Hd & En) & (Pf & (Tc & Ru & Rm) & Rs & Pd & Dd)). rewrite names_same in Hm. split; auto. split; auto. split; auto.
    destruct (service_read vs Hv) as (vy & vname & vns & sp & (_ & Cv & Dv & Mv)). destruct Mv as (_ & _ & _ & Mr & _). destruct (Mr r Hr) as (k & e & He & (_ & Ds & Ro)).
    destruct (F2 vy vname vns sp (chosen_In _ _ _ _ Cv) Dv) as [Fh Fr]. rewrite Eh in Rs. rewrite Ew in Ru.
    pose proof (proj1 (Ro "mesh" h w (pt 5) Fh (Fr k e He)) (conj Hm (conj Ru (conj Rm Rs)))) as T.
    destruct Ds as (Ds & _). destruct (Ds d Hd) as (de & Hde & Dof). exists vns, de. destruct Dof as ((num & De) & _ & _ & Dof). rewrite En in De. split.
    + exists vy, vname, sp, k, e, num. auto 10.
    + apply Dof. split; [exact Pd|exact Dd].
  - intros (Wo & Pf & Tc & ns & de & (vy & vname & sp & k & e & num & Cv & Dv & He & T & Hde & De) & Da). split; auto.
    destruct (service_written _ _ _ _ Cv Dv) as (vs & (Hv & _ & _ & Mv)). destruct Mv as (_ & _ & _ & _ & Mr). destruct (Mr k e He) as [(r & Hr & (_ & Ds & Ro))|[-> Em]].
    2:{ cbn [route_takes] in T. destruct T as (it & Hit & _). rewrite Em in Hit. destruct Hit. }
    destruct (F2 vy vname ns sp (chosen_In _ _ _ _ Cv) Dv) as [Fh Fr]. destruct (proj2 (Ro "mesh" h w (pt 5) Fh (Fr k e He)) T) as (Hm & Ru & Rm & Rs). rewrite <- names_same in Hm.
    destruct Ds as (_ & Dl & Ds). destruct (Ds de Hde) as [(d & Hd & Dof)|Np].
    2:{ exfalso. apply (Np (to pt)). destruct Da as (host & num' & D1 & D2). exists host, num'. split; auto. destruct D2 as [(k' & pods & p & X1 & X2 & X3 & _)|[X _]]; [left; exists k', pods; auto|right; exact X]. }
    destruct Dof as ((num' & De') & _ & _ & Dof). destruct (entry_fn _ _ _ _ _ De De') as [En _].
    exists vs, r, d. split; [split; [exact Hv|split; [exact Hr|split; [exact Hm|split; [|split; [exact Hd|exact En]]]]]|].
    + apply (Dl d "istio-egressgateway" "istio-system" Hd). rewrite En. apply egress_local.
    + split; auto. split; [split; [exact Tc|rewrite Ew; auto]|]. split; [rewrite Eh; exact Rs|]. apply Dof. exact Da.
Qed.
(** Both halves of the way out are given by documents. *)
Theorem C69_way_out : (exists sel ns e h w me, doc_serves true sel ns e h w me /\ fair h w) -> (exists ns de h w me x, doc_sends ns de h w me /\ fair h w /\ dest_pod cl ks ns de x) -> way_out gs vss.
Proof using CO C0 RM Hc HS SF Eg Ev GB VB.
  intros (sel & ns & e & h & w & me & (gy & gname & gns & servers & vy & vname & sp & k & Cg & Dg & Cv & Dv & He & T & H1 & H2) & F) (ns' & de & h' & w' & me' & x & (vy' & vname' & sp' & k' & e' & num & Cv' & Dv' & He' & T' & Hde & De) & [F1 F2] & Px). split.
  - destruct (gateway_written _ _ _ _ _ _ Cg Dg) as (g & G). destruct (service_written _ _ _ _ Cv Dv) as (vs & S).
    assert (S' := S). destruct S' as (Hv & _ & _ & Mv). destruct Mv as (_ & _ & _ & _ & Mr). destruct (Mr k e He) as [(r & Hr & Ro)|[-> Em]].
    2:{ cbn [route_takes] in T. destruct T as (it & Hit & _). rewrite Em in Hit. destruct Hit. }
    destruct (proj2 (route_bound _ _ _ _ _ _ _ _ _ _ _ _ _ _ _ h w me G S He Ro F) (conj T (conj H1 H2))) as (Bd & _). destruct G as (Hg & _ & _ & _ & Ee & _).
    exists vs, r, g. split; auto. split; auto. split; auto. split; [exact Ee|]. exists (code h). exact Bd.
  - destruct (service_written _ _ _ _ Cv' Dv') as (vs & (Hv & _ & _ & Mv)). destruct Mv as (_ & _ & _ & _ & Mr). destruct (Mr k' e' He') as [(r & Hr & (_ & Ds & Ro))|[-> Em]].
    2:{ cbn [route_takes] in T'. destruct T' as (it & Hit & _). rewrite Em in Hit. destruct Hit. }
    destruct (F2 vy' vname' ns' sp' (chosen_In _ _ _ _ Cv') Dv') as [Fh Fr]. destruct (proj2 (Ro "mesh" h' w' me' Fh (Fr k' e' He')) T') as (Hm & _). rewrite <- names_same in Hm.
    destruct Ds as (_ & Dl & Ds). destruct (Ds de Hde) as [(d & Hd & Dof)|Np]; [|destruct (Np x Px)].
    destruct Dof as ((num' & De') & _). destruct (entry_fn _ _ _ _ _ De De') as [En _]. exists vs, r, d. split; [exact Hv|]. split; [exact Hr|]. split; [exact Hm|]. split; [|split; [exact Hd|exact En]].
    apply (Dl d "istio-egressgateway" "istio-system" Hd). rewrite En. apply egress_local.
Qed.

(** ** The policies and their layer *)
Context (pols : list policy) (Ng : gs <> []) (Nv : vss <> []) (EP : gateway_policies std_dom reg cl (Some gs) (Some vss) = Some pols).
(** What the policies allow is what the documents say. *)
Theorem C69_documents : forall pt h w, space pt -> pt 6 = code h -> pt 7 = code w -> fair h w ->
  (egress_allowed pols pt <-> exists eg, (eg = true -> way_out gs vss) /\ doc_route eg pt h w) /\ (ingress_allowed pols pt <-> way_out gs vss /\ doc_enters pt h w).
Proof using CO C0 RM Hc HS SF Eg Ev GB VB R HC Hp Ng Nv EP.
  intros pt h w Sp Eh Ew F. destruct C69_gateways_good as [G1 G2].
  destruct (C67_gateway_policies reg R cl Hc HC Hp gs G1 G2 vss C69_services_good pols Ng Nv EP) as (_ & _ & _ & _ & M). destruct (M pt Sp) as (M1 & _ & M2 & _). split.
  - rewrite M1. apply C69_routes; auto.
  - rewrite M2. apply C69_entrances; auto.
Qed.
Lemma no_way_out : no_egress -> ~ way_out gs vss.
Proof using CO C0 Hc Eg GB.
  intros N ((vs & r & g & (_ & _ & Hg & Ee & _)) & _). destruct (gateway_read g Hg) as (gy & gname & gns & sel & servers & (_ & Cg & Dg & _)). rewrite Ee in Dg. exact (N _ _ _ _ _ (chosen_In _ _ _ _ Cg) Dg).
Qed.
(** Without egress gateways, a workload of an ingress gateway that serves some route sends exactly what the documents say, to pods, DNS entries
    and addresses; from other pods the layer allows every TCP connection. *)
Theorem C69_ingress_gateways : no_egress -> forall f, f_all f = true -> forall pt h w, space pt -> a_tcp pt = true -> member (cl_peers cl) (from pt) -> ~ named_dns (from pt) ->
  is_addr (to pt) \/ member (cl_peers cl) (to pt) -> pt 6 = code h -> pt 7 = code w -> fair h w ->
  ((exists sel ns e h' w' me, doc_serves false sel ns e h' w' me /\ fair h' w' /\ labelled sel (from pt)) ->
   (pt @ all_allowed (layer_conns A LIstioGateway (cl_peers cl) pols f) <-> doc_route false pt h w)) /\
  ((forall gy gname gns sel servers, In gy gdocs -> gateway_doc cl gy gname gns sel servers false -> ~ labelled sel (from pt)) -> pt @ all_allowed (layer_conns A LIstioGateway (cl_peers cl) pols f)).
Proof using CO C0 RM Hc HS SF Eg Ev GB VB R HC Hp Ng Nv EP.
  intros N f Hf pt h w Sp T Mf Nf Ht Eh Ew F. destruct C69_gateways_good as [G1 G2]. pose proof (no_way_out N) as NW.
  pose proof (C68_from_pods reg R cl Hc HC Hp gs G1 G2 vss C69_services_good pols Ng Nv EP f Hf pt Sp T Mf Nf Ht) as M.
  assert (Lv : leaves reg cl gs vss pt <-> doc_route false pt h w).
  { rewrite (C69_routes pt h w Eh Ew F). split; [intros (eg & Ac & H); destruct eg; [destruct (NW (Ac eq_refl))|exact H]|intros H; exists false; split; [discriminate|exact H]]. }
  assert (NE : forall x, ~ entrance_pod gs vss x) by (intros x [H _]; exact (NW H)). assert (NB : ~ bypasses reg cl gs vss pt) by (intros [H _]; exact (NW H)).
  assert (In1 : is_addr (to pt) \/ ~ entrance_pod gs vss (to pt) /\ (named_dns (to pt) -> exists x, member (cl_peers cl) x /\ ~ named_dns x /\ ~ entrance_pod gs vss x)).
  { right. split; [apply NE|]. intros _. exists (from pt). split; [exact Mf|]. split; [exact Nf|apply NE]. }
  assert (M' : pt @ all_allowed (layer_conns A LIstioGateway (cl_peers cl) pols f) <-> leaves reg cl gs vss pt \/ ~ gateway_pod gs vss (from pt)).
  { refine (iff_trans M _). clear - In1 NB. tauto. }
  clear M In1. split.
  - intros (sel & ns & e & h' & w' & me & (gy & gname & gns & servers & vy & vname & sp & k & Cg & Dg & Cv & Dv & He & Tk & H1 & H2) & F' & Lf). refine (iff_trans M' _). rewrite Lv.
    assert (Gp : gateway_pod gs vss (from pt)); [|clear - Gp; tauto].
    destruct (gateway_written _ _ _ _ _ _ Cg Dg) as (g & G). destruct (service_written _ _ _ _ Cv Dv) as (vs & S).
    assert (S' := S). destruct S' as (Hv & _ & _ & Mv). destruct Mv as (_ & _ & _ & _ & Mr). destruct (Mr k e He) as [(r & Hr & Ro)|[-> Em]].
    2:{ cbn [route_takes] in Tk. destruct Tk as (it & Hit & _). rewrite Em in Hit. destruct Hit. }
    destruct (proj2 (route_bound _ _ _ _ _ _ _ _ _ _ _ _ _ _ _ h' w' me G S He Ro F') (conj Tk (conj H1 H2))) as (Bd & _). destruct G as (Hg & _ & _ & _ & Ee & N3 & N4 & _).
    exists false, vs, r, g. split; [discriminate|]. split; [split; auto; split; auto; split; auto; split; [exact Ee|exists (code h'); exact Bd]|]. apply (labelled_in sel _ N3 N4). exact Lf.
  - intros Np. apply M'. right. intros (eg & vs & r & g & Ac & (_ & _ & Hg & Ee & _) & Pf). destruct eg; [exact (NW (Ac eq_refl))|].
    destruct (gateway_read g Hg) as (gy & gname & gns & sel & servers & (_ & Cg & Dg & _ & _ & N3 & N4 & _)). rewrite Ee in Dg. apply (Np _ _ _ _ _ (chosen_In _ _ _ _ Cg) Dg). apply (labelled_in sel _ N3 N4). exact Pf.
Qed.
End Docs.
Print Assumptions C69_documents.
Print Assumptions C69_ingress_gateways.
