(** * The policies made of parsed Gateways and VirtualServices. *)
From Coq Require Import ZArith List Bool Arith Lia String Ascii.
From Verif Require Import IntervalModel IntervalFacts HyperModel HyperFacts HyperOps HyperDims HyperTop HyperInst PropHyperCube ConnModel ConnFacts TextModel PortProtoModel
                          PeerModel PeerFacts PeerSetFacts PolicyModel PolicyLaws PolicyFacts LayerFacts OrderFacts ConnAlg StdDims PropLayers YamlModel ClusterModel ConnDict
                          SelectorFacts CalicoSelectorSets PropSelectors K8sParserModel K8sParserFacts CalicoSelectorModel CalicoParserModel IstioValueModel PropIstioValues IstioRuleFacts IstioParserModel
                          ServiceModel PropServices IngressModel IngressWords PropIngressPaths GatewayFacts IngressFacts IstioGwModel.
Import ListNotations.
Local Open Scope string_scope.
Local Open Scope list_scope.
Local Open Scope nat_scope.
Local Opaque min_pod_index max_pod_index min_ipv6_index max_ipv6_index max_ipv4_index v4max v6min v6max.

Section Facts.
Context (reg : list peer) (R : reg_ok reg) (cl : cluster) (Hc : cluster_ok cl) (HC : container reg (cl_peers cl)).
Context (Hp : forall p nm n pr, assoc_s nm (cl_ports cl p) = Some (n, pr) -> (1 <= n <= 65535)%Z).

Let O := val_ops std_dom.
Let L := std_vals.
Notation space := (a_space std_dom).
Notation from := (a_src reg).
Notation to := (a_dst reg).
Notation ok := (a_ok std_dom std_rest).
Notation mk := (conns_of std_dom reg (cl_ports cl)).
Notation wset := (word_set std_dom).

(** ** What is meant *)
(** Pods of the cluster. *)
Definition of_cluster (s : peerset) : Prop := plain s /\ forall q, In q s -> In q (cl_peers cl).
(** A set of hosts that holds a word, and the empty word only if it holds every word. *)
Definition host_set (v : val) : Prop := val_valid std_dom 6 v /\ (exists x, val_mem x v) /\ (val_mem 0%Z v -> forall x, val_mem x v).
Definition some_mem (x : Z) (o : option val) : Prop := exists v, o = Some v /\ val_mem x v.
Definition vs_host (vs : vservice) (x : Z) : Prop := exists v, In v (vs_hosts vs) /\ val_mem x v.
(** The names of the gateways of a route. *)
Definition names_for (vs : vservice) (r : route) : list string := match rt_gateways r with [] => vs_gateways vs | l => l end.
(** The route is bound to the gateway for the host. *)
Definition bound (vs : vservice) (r : route) (g : gateway) (x : Z) : Prop :=
  In (gw_name g) (names_for vs r) /\ gw_name g <> "mesh" /\ some_mem x (gw_hosts g) /\ vs_host vs x /\ opt (val_mem x) (rt_sni r).
(** TCP requests with the path and the method of the route. *)
Definition request (r : route) (pt : conn) : Prop := pt 2 = 6%Z /\ opt (val_mem (pt 7)) (rt_uri r) /\ opt (mem (pt 5)) (rt_methods r).
Definition reaches (d : dest) (pt : conn) : Prop := pt_in (to pt) (ds_pods d) /\ dport_in (cl_ports cl) (eq 6%Z) (to pt) (ds_ports d) (pt 4).
(** The destinations of a route for a request at the gateway. *)
Definition routed (vs : vservice) (r : route) (g : gateway) (pt : conn) : Prop :=
  pt_in (from pt) (gw_peers g) /\ bound vs r g (pt 6) /\ request r pt /\ exists d, In d (rt_dests r) /\ reaches d pt.
(** The destination is the egress gateway, for requests from the mesh. *)
Definition into_gateway (vs : vservice) (r : route) (d : dest) : Prop :=
  In "mesh" (names_for vs r) /\ rt_internal r = Some true /\ In d (rt_dests r) /\ ds_name d = "istio-egressgateway.istio-system.svc.cluster.local".
Definition enters (r : route) (d : dest) (pt : conn) : Prop :=
  pt_in (from pt) (all_group cl) /\ request r pt /\ opt (val_mem (pt 6)) (rt_sni r) /\ reaches d pt.

Definition dest_good (d : dest) : Prop := of_cluster (ds_pods d) /\ ports_good (ds_ports d).
Definition route_good (r : route) : Prop :=
  (forall d, In d (rt_dests r) -> dest_good d) /\ opt (wset 7) (rt_uri r) /\ opt (fun m => m <> [] /\ ConnDict.in_range 0 8 m) (rt_methods r) /\ opt host_set (rt_sni r).
Definition routes_of (vs : vservice) : list route := vs_http vs ++ vs_tls vs ++ vs_tcp vs.
Definition vs_good (vs : vservice) : Prop :=
  (forall v, In v (vs_hosts vs) -> host_set v) /\ vs_gateways vs <> [] /\ forall r, In r (routes_of vs) -> route_good r.
Definition gw_good (g : gateway) : Prop := opt host_set (gw_hosts g) /\ of_cluster (gw_peers g).

(** ** Sets of hosts *)
Lemma hset_wset : forall v, host_set v -> wset 6 v.
Proof using.
  intros v (V & (x & Hx) & Z). split; auto. destruct (Z.eq_dec x 0) as [->|N]; [exists 1%Z; split; [discriminate|auto]|exists x; auto].
Qed.
Lemma hset_bool : forall v, host_set v -> vbool O v = true.
Proof using. intros v (V & E & _). apply (L_bool _ _ _ L 6 v V). exact E. Qed.
Lemma hset_or : forall u v, host_set u -> host_set v -> host_set (vor O u v) /\ forall x, val_mem x (vor O u v) <-> val_mem x u \/ val_mem x v.
Proof using.
  intros u v (Vu & (x & Hx) & Zu) (Vv & _ & Zv). assert (M : forall x, val_mem x (vor O u v) <-> val_mem x u \/ val_mem x v) by (intros z; apply (L_or _ _ _ L 6); auto).
  split; [|exact M]. split; [apply (L_or_valid _ _ _ L); auto|]. split; [exists x; apply M; auto|]. intros H z. apply M. apply M in H as [H|H]; [left|right]; auto.
Qed.
Lemma hset_and : forall u v, host_set u -> host_set v -> (forall x, val_mem x (vand O u v) <-> val_mem x u /\ val_mem x v) /\
  (vbool O (vand O u v) = true <-> exists x, val_mem x u /\ val_mem x v) /\ (vbool O (vand O u v) = true -> host_set (vand O u v)).
Proof using.
  intros u v (Vu & _ & Zu) (Vv & _ & Zv). assert (M : forall x, val_mem x (vand O u v) <-> val_mem x u /\ val_mem x v) by (intros z; apply (L_and _ _ _ L 6); auto).
  assert (V : val_valid std_dom 6 (vand O u v)) by (apply (L_and_valid _ _ _ L); auto).
  split; [exact M|]. split.
  - refine (iff_trans (L_bool _ _ _ L 6 _ V) _). split; intros (x & Hx); exists x; apply M; auto.
  - intros B. apply (L_bool _ _ _ L 6 _ V) in B. split; auto. split; auto. intros H z. apply M in H as [H1 H2]. apply M. auto.
Qed.
Lemma all_hosts_spec : forall l h, all_hosts std_dom l = Some h -> (forall v, In v l -> host_set v) -> host_set h /\ forall x, val_mem x h <-> exists v, In v l /\ val_mem x v.
Proof using.
  intros [|v t] h E G; [discriminate|]. cbn [all_hosts] in E. injection E as <-.
  assert (X : forall t v, host_set v -> (forall u, In u t -> host_set u) -> host_set (fold_left (vor O) t v) /\ forall x, val_mem x (fold_left (vor O) t v) <-> val_mem x v \/ exists u, In u t /\ val_mem x u).
  { clear v t G. induction t as [|u t IH]; intros v Hv G; cbn [fold_left].
    - split; auto. intros x. split; auto. intros [H|(u & [] & _)]; auto.
    - destruct (hset_or v u Hv (G u (or_introl eq_refl))) as [H1 H2]. destruct (IH _ H1 (fun w Hw => G w (or_intror Hw))) as [I1 I2]. split; [exact I1|].
      intros x. refine (iff_trans (I2 x) _). rewrite H2. cbn [In]. split.
      + intros [[H|H]|(w & Hw & H)]; [auto|right; exists u; auto|right; exists w; auto].
      + intros [H|(w & [<-|Hw] & H)]; [auto|auto|right; exists w; auto]. }
  destruct (X t v (G v (or_introl eq_refl)) (fun u Hu => G u (or_intror Hu))) as [X1 X2]. split; [exact X1|]. intros x. refine (iff_trans (X2 x) _). cbn [In]. split.
  - intros [H|(u & Hu & H)]; [exists v; auto|exists u; auto].
  - intros (u & [<-|Hu] & H); [auto|right; exists u; auto].
Qed.

(** ** Connections *)
Lemma cluster_pok : forall s, of_cluster s -> pok reg s.
Proof using HC. intros s [P I]. exact (plain_pok cl reg HC s P I). Qed.
Lemma group_cluster : of_cluster (all_group cl).
Proof using Hc. split; [apply all_group_plain, cluster_plain; auto|]. intros q Hq. apply all_group_In in Hq as [Hq _]; auto. Qed.
Lemma tcp_mem : forall z, mem z tcp_set <-> z = 6%Z.
Proof using. intros z. unfold tcp_set. rewrite mem_cons, mem_nil. cbn [lo hi]. lia. Qed.
Lemma route_conns_spec : forall src d r hosts, pok reg src -> dest_good d -> route_good r -> opt (wset 6) hosts ->
  let c := route_conns std_dom reg cl src d r hosts in
  ok c /\ regular_conns c /\ forall pt, space pt -> (pt @ c <-> pt_in (from pt) src /\ request r pt /\ opt (val_mem (pt 6)) hosts /\ reaches d pt).
Proof using R HC Hp.
  intros src d r hosts Ps [Pd [Pq1 Pq2]] (_ & Gu & Gm & _) Hh c. unfold c, route_conns.
  assert (Ku : keep_word std_dom (rt_uri r) = rt_uri r).
  { destruct (rt_uri r) as [v|]; auto. cbn [keep_word opt] in *. destruct Gu as [V (x & _ & Hx)]. replace (vbool (val_ops std_dom) v) with true; auto. symmetry. apply (L_bool _ _ _ L 7 v V). eauto. }
  assert (Km : keep_methods (rt_methods r) = rt_methods r).
  { destruct (rt_methods r) as [[|]|]; auto. cbn [opt] in Gm. tauto. }
  rewrite Ku, Km. set (k := CDict _ _ _ _ _ _ _ _ _ _).
  assert (DK : dict_ok std_dom reg k).
  { constructor; cbn [k k_src k_dst k_proto k_sports k_dports k_methods k_hosts k_paths k_type k_code opt]; auto.
    - apply cluster_pok. exact Pd.
    - split; [exact (conj Logic.I Logic.I) || (cbn; lia)|]. intros z Hz. apply tcp_mem in Hz. lia.
    - split; auto. split; auto. discriminate.
    - destruct (rt_methods r); cbn [opt] in *; tauto. }
  destruct (std_conns_of_spec reg R (cl_ports cl) Hp k DK) as [Ok M]. split; [exact Ok|].
  split; [exact (std_conns_of_regular reg R (cl_ports cl) Hp k DK)|]. intros pt Sp.
  refine (iff_trans (M pt Sp) _). unfold dict_rest, reaches, request, k. cbn [k_src k_dst k_proto k_sports k_dports k_methods k_hosts k_paths k_type k_code opt].
  assert (E : forall pr, val_mem pr (dict_cube std_dom reg (CDict (Some src) (Some (ds_pods d)) (Some tcp_set) None (Some (ds_ports d)) (rt_methods r) hosts (rt_uri r) None None) 2) <-> 6%Z = pr).
  { intros pr. change (mem pr tcp_set <-> 6%Z = pr). rewrite tcp_mem. split; auto. }
  unfold dport_in. setoid_rewrite E. assert (T : 6%Z = pt 2 <-> pt 2 = 6%Z) by (split; auto). rewrite <- T. clear. tauto.
Qed.
Lemma deny_conns_spec : forall src dst, pok reg src -> pok reg dst ->
  let c := deny_conns std_dom reg cl src dst in
  ok c /\ regular_conns c /\ forall pt, space pt -> (pt @ c <-> pt_in (from pt) src /\ pt_in (to pt) dst).
Proof using R Hp.
  intros src dst Ps Pd c. unfold c, deny_conns. set (k := CDict _ _ _ _ _ _ _ _ _ _).
  assert (DK : dict_ok std_dom reg k) by (constructor; cbn [k k_src k_dst k_proto k_sports k_dports k_methods k_hosts k_paths k_type k_code opt]; auto).
  destruct (std_conns_of_spec reg R (cl_ports cl) Hp k DK) as [Ok M]. split; [exact Ok|].
  split; [exact (std_conns_of_regular reg R (cl_ports cl) Hp k DK)|]. intros pt Sp.
  refine (iff_trans (M pt Sp) _). unfold dict_rest, k. cbn [k_src k_dst k_proto k_sports k_dports k_methods k_hosts k_paths k_type k_code opt]. clear. tauto.
Qed.

(** ** Gateways *)
Context (gs : list gateway) (GN : NoDup (map gw_name gs)) (GG : forall g, In g gs -> gw_good g).
Lemma named_gateway : forall g g', In g gs -> In g' gs -> gw_name g = gw_name g' -> g = g'.
Proof using GN.
  clear GG. revert GN. induction gs as [|a l IH]; intros N g g' H H' E; [destruct H|]. cbn [map] in N. inversion N as [|? ? N1 N2]; subst.
  destruct H as [<-|H], H' as [<-|H']; auto.
  - exfalso. apply N1. rewrite E. apply in_map. exact H'.
  - exfalso. apply N1. rewrite <- E. apply in_map. exact H.
Qed.
Definition matched (vs : vservice) (names : list string) (g : gateway) : Prop :=
  In g gs /\ In (gw_name g) names /\ gw_name g <> "mesh" /\ exists x, some_mem x (gw_hosts g) /\ vs_host vs x.
Lemma pick_spec : forall vs names l, vs_good vs -> pick_gateways std_dom gs vs names = Some l ->
  (forall g v, In (g, v) l -> matched vs names g /\ host_set v /\ forall x, val_mem x v <-> some_mem x (gw_hosts g) /\ vs_host vs x) /\
  (forall g, matched vs names g -> exists v, In (g, v) l).
Proof using GN GG.
  intros vs names l (Gv & _ & _) E. unfold pick_gateways in E. destruct (all_hosts std_dom (vs_hosts vs)) as [h|] eqn:Eh; [|discriminate]. cbn [bind] in E.
  destruct (all_hosts_spec _ _ Eh Gv) as [Hh Mh]. change (forall x, val_mem x h <-> vs_host vs x) in Mh.
  assert (X : forall names l0 l, fold_left (pick_step std_dom gs h) names (Some l0) = Some l ->
    (forall g v, In (g, v) l0 -> In g gs /\ host_set v /\ forall x, val_mem x v <-> some_mem x (gw_hosts g) /\ vs_host vs x) ->
    (forall g v, In (g, v) l -> (In g gs /\ host_set v /\ forall x, val_mem x v <-> some_mem x (gw_hosts g) /\ vs_host vs x) /\ (In (g, v) l0 \/ In (gw_name g) names /\ gw_name g <> "mesh")) /\
    (forall g v, In (g, v) l0 -> In (g, v) l) /\ (forall g, matched vs names g -> exists v, In (g, v) l)).
  { clear names l E. induction names as [|n names IH]; intros l0 l E I.
    - cbn [fold_left] in E. injection E as <-. split; [intros g v H; split; auto|]. split; auto. intros g (_ & [] & _).
    - cbn [fold_left] in E. destruct (pick_step std_dom gs h (Some l0) n) as [l1|] eqn:E1.
      2:{ exfalso. clear - E. induction names as [|a t IH]; [discriminate|]. cbn [fold_left pick_step bind] in E. auto. }
      unfold pick_step in E1. cbn [bind] in E1.
      assert (Y : (forall g v, In (g, v) l1 -> (In g gs /\ host_set v /\ forall x, val_mem x v <-> some_mem x (gw_hosts g) /\ vs_host vs x) /\ (In (g, v) l0 \/ gw_name g = n /\ gw_name g <> "mesh")) /\
        (forall g v, In (g, v) l0 -> In (g, v) l1) /\ (forall g, matched vs [n] g -> exists v, In (g, v) l1)).
      { destruct (String.eqb_spec n "mesh") as [->|Nm].
        { injection E1 as <-. split; [intros g v H; split; auto|]. split; auto. intros g (_ & [Hn|[]] & Nn & _). congruence. }
        destruct (find (fun g => String.eqb (gw_name g) n) gs) as [g0|] eqn:Ef.
        2:{ injection E1 as <-. split; [intros g v H; split; auto|]. split; auto. intros g (Hg & [Hn|[]] & _). exfalso.
            pose proof (List.find_none _ _ Ef g Hg) as F. cbv beta in F. rewrite <- Hn, String.eqb_refl in F. discriminate. }
        apply find_some in Ef as [Hg0 En]. apply String.eqb_eq in En. pose proof (GG g0 Hg0) as [Gh _].
        destruct (gw_hosts g0) as [u|] eqn:Eu; [|discriminate]. cbn [bind opt] in E1, Gh. destruct (hset_and u h Gh Hh) as (Ma & Mb & Mc).
        assert (Fm : forall x, val_mem x (vand O u h) <-> some_mem x (gw_hosts g0) /\ vs_host vs x).
        { intros x. refine (iff_trans (Ma x) _). rewrite Mh. unfold some_mem. rewrite Eu. split.
          - intros [H1 H2]. split; auto. exists u. auto.
          - intros [(u' & E' & H1) H2]. injection E' as <-. auto. }
        assert (Own : forall g, matched vs [n] g -> g = g0 /\ vbool O (vand O u h) = true).
        { intros g (Hg & [Hn|[]] & _ & x & Hx & Hv). assert (g = g0) by (apply named_gateway; auto; congruence). subst g. split; auto.
          apply Mb. exists x. destruct Hx as (u' & E' & Hx). rewrite Eu in E'. injection E' as <-. split; auto. apply Mh. exact Hv. }
        destruct (vbool O (vand O u h)) eqn:Eb; fold O in E1; rewrite Eb in E1; cbn [andb] in E1.
        2:{ injection E1 as <-. split; [intros g v H; split; auto|]. split; auto. intros g Hg. apply Own in Hg as [_ Hg]. discriminate. }
        destruct (existsb (fun e => String.eqb (gw_name (fst e)) (gw_name g0)) l0) eqn:Ee; cbn [negb] in E1; injection E1 as <-.
        - split; [intros g v H; split; auto|]. split; auto. intros g Hg. apply Own in Hg as [-> _]. apply existsb_exists in Ee as ([g1 v1] & Hin & E1). apply String.eqb_eq in E1. cbn [fst] in E1.
          assert (g1 = g0) by (apply named_gateway; auto; apply (I g1 v1 Hin)). subst g1. eauto.
        - split; [|split].
          + intros g v H. apply in_app_or in H as [H|[H|[]]]; [split; auto|]. injection H as <- <-. split; [|right; split; auto; congruence]. auto.
          + intros g v H. apply in_or_app. auto.
          + intros g Hg. apply Own in Hg as [-> _]. eexists. apply in_or_app. right. left. reflexivity. }
      destruct Y as (Y1 & Y2 & Y3). assert (I1 : forall g v, In (g, v) l1 -> In g gs /\ host_set v /\ forall x, val_mem x v <-> some_mem x (gw_hosts g) /\ vs_host vs x) by (intros g v H; apply (Y1 g v H)).
      destruct (IH l1 l E I1) as (X1 & X2 & X3). split; [|split].
      + intros g v H. destruct (X1 g v H) as [H1 [H2|[H2 H3]]]; (split; [exact H1|]); [|right; cbn [In]; auto]. destruct (Y1 g v H2) as [_ [H3|[H3 H4]]]; [left; auto|right; cbn [In]; auto].
      + intros g v H. auto.
      + intros g (Hg & [Hn|Hn] & Hr); [|apply X3; split; auto]. destruct (Y3 g) as (v & Hv); [split; [auto|split; [left; auto|auto]]|]. exists v. auto. }
  destruct (X names [] l E (fun g v (H : In (g, v) []) => False_ind _ H)) as (X1 & _ & X3). split; [|exact X3].
  intros g v H. destruct (X1 g v H) as [(H1 & H2 & H3) [[]|[H4 H5]]]. split; [|auto]. split; auto. split; auto. split; auto.
  destruct H2 as (_ & (x & Hx) & _). exists x. apply H3. exact Hx.
Qed.

(** ** Policies *)
Notation pol := policy.
Definition rules_good (rs : list rule) : Prop := forall q, In q rs -> ok (r_props q) /\ regular_conns (r_props q).
Definition made (P : pol) : Prop := p_kind P = TGatewayPolicy /\ p_ord P = None /\ rules_good (p_ingress P) /\ rules_good (p_egress P) /\ of_cluster (p_selected P).
(** The policy that allows what the gateway routes. *)
Definition allow_for (vs : vservice) (r : route) (g : gateway) (P : pol) : Prop :=
  made P /\ p_action P = Allow /\ p_ns P = vs_ns vs /\ p_affects_in P = false /\ p_affects_eg P = true /\ p_ingress P = [] /\ p_selected P = gw_peers g /\
  forall pt, space pt -> (some_rule (p_egress P) pt <-> routed vs r g pt).
(** The policy that denies other pods the destinations of an egress gateway. *)
Definition deny_for (vs : vservice) (r : route) (g : gateway) (P : pol) : Prop :=
  made P /\ p_action P = Deny /\ p_ns P = vs_ns vs /\ p_affects_in P = false /\ p_affects_eg P = true /\ p_ingress P = [] /\
  (forall q, In q (p_selected P) <-> In q (all_group cl) /\ ~ In q (gw_peers g)) /\
  forall pt, space pt -> (some_rule (p_egress P) pt <-> pt_in (from pt) (p_selected P) /\ exists d, In d (rt_dests r) /\ pt_in (to pt) (ds_pods d)).
(** The policy that allows what enters the egress gateway. *)
Definition enter_for (vs : vservice) (r : route) (d : dest) (P : pol) : Prop :=
  made P /\ p_action P = Allow /\ p_ns P = vs_ns vs /\ p_affects_in P = true /\ p_affects_eg P = false /\ p_egress P = [] /\ p_selected P = ds_pods d /\
  forall pt, space pt -> (some_rule (p_ingress P) pt <-> enters r d pt).

(** One policy at least for each of the given things, and no other ones. *)
Definition covers {T} (D : T -> Prop) (F : T -> pol -> Prop) (l : list pol) : Prop :=
  (forall P, In P l -> exists t, D t /\ F t P) /\ forall t, D t -> exists P, In P l /\ F t P.
Lemma covers_nil : forall {T} (D : T -> Prop) (F : T -> pol -> Prop), (forall t, ~ D t) -> covers D F [].
Proof using. intros T D F N. split; [intros P []|]. intros t H. destruct (N t H). Qed.
Lemma covers_one : forall {T} (D : T -> Prop) (F : T -> pol -> Prop) t P, D t -> (forall t', D t' -> t' = t) -> F t P -> covers D F [P].
Proof using. intros T D F t P H U H'. split; [intros Q [<-|[]]; eauto|]. intros t' Ht. rewrite (U t' Ht). exists P. split; [left; reflexivity|exact H']. Qed.
Lemma covers_app : forall {T} (D D1 D2 : T -> Prop) (F : T -> pol -> Prop) a b, covers D1 F a -> covers D2 F b -> (forall t, D t <-> D1 t \/ D2 t) -> covers D F (a ++ b).
Proof using.
  intros T D D1 D2 F a b [A1 A2] [B1 B2] E. split.
  - intros P H. apply in_app_or in H as [H|H]; [destruct (A1 P H) as (t & Dt & Ft)|destruct (B1 P H) as (t & Dt & Ft)]; exists t; (split; [apply E; auto|exact Ft]).
  - intros t H. apply E in H as [H|H]; [destruct (A2 t H) as (P & HP & Ft)|destruct (B2 t H) as (P & HP & Ft)]; exists P; (split; [apply in_or_app; auto|exact Ft]).
Qed.
Lemma covers_ext : forall {T} (D D' : T -> Prop) (F : T -> pol -> Prop) l, (forall t, D t <-> D' t) -> covers D F l -> covers D' F l.
Proof using.
  intros T D D' F l E [A B]. split.
  - intros P H. destruct (A P H) as (t & Dt & Ft). exists t. split; [apply E; auto|auto].
  - intros t H. apply B. apply E. exact H.
Qed.

(** A virtual service, one of its routes and a gateway or a destination. *)
Definition fam (F : vservice -> route -> gateway -> pol -> Prop) (t : vservice * route * gateway) : pol -> Prop := F (fst (fst t)) (snd (fst t)) (snd t).
Definition famd (t : vservice * route * dest) : pol -> Prop := enter_for (fst (fst t)) (snd (fst t)) (snd t).
Definition uses (eg : bool) (t : vservice * route * gateway) : Prop := In (snd t) gs /\ gw_egress (snd t) = eg /\ exists x, bound (fst (fst t)) (snd (fst t)) (snd t) x.
Definition enters_at (t : vservice * route * dest) : Prop := into_gateway (fst (fst t)) (snd (fst t)) (snd t).
Definition flows_are (I : vservice -> route -> Prop) (f : flows) : Prop :=
  covers (fun t => I (fst (fst t)) (snd (fst t)) /\ uses false t) (fam allow_for) (fl_ingress f) /\
  covers (fun t => I (fst (fst t)) (snd (fst t)) /\ uses true t) (fam allow_for) (fl_egress f) /\
  covers (fun t => I (fst (fst t)) (snd (fst t)) /\ uses true t) (fam deny_for) (fl_deny f) /\
  covers (fun t => I (fst (fst t)) (snd (fst t)) /\ enters_at t) famd (fl_mesh f).
Lemma flows_app : forall (I I1 I2 : vservice -> route -> Prop) a b, flows_are I1 a -> flows_are I2 b -> (forall vs r, I vs r <-> I1 vs r \/ I2 vs r) -> flows_are I (add_flows a b).
Proof using.
  intros I I1 I2 a b (A1 & A2 & A3 & A4) (B1 & B2 & B3 & B4) E. unfold flows_are, add_flows. cbn [fl_ingress fl_mesh fl_egress fl_deny].
  split; [|split; [|split]]; (eapply covers_app; [eassumption|eassumption|]); intros t; cbv beta; rewrite E; tauto.
Qed.
Lemma flows_none : forall (I : vservice -> route -> Prop), (forall vs r, ~ I vs r) -> flows_are I no_flows.
Proof using. intros I N. unfold flows_are, no_flows. cbn [fl_ingress fl_mesh fl_egress fl_deny]. split; [|split; [|split]]; apply covers_nil; intros t [H _]; exact (N _ _ H). Qed.
Lemma flows_ext : forall (I I' : vservice -> route -> Prop) f, (forall vs r, I vs r <-> I' vs r) -> flows_are I f -> flows_are I' f.
Proof using.
  intros I I' f E (A1 & A2 & A3 & A4). split; [|split; [|split]]; (eapply covers_ext; [|eassumption]); intros t; cbv beta; rewrite E; tauto.
Qed.

Lemma keep_hset : forall o, opt host_set o -> keep_word std_dom o = o.
Proof using. intros [v|] H; auto. cbn [keep_word opt] in *. fold O. rewrite (hset_bool v H). reflexivity. Qed.
(** One gateway of a route. *)
Lemma gateway_flows_spec : forall vs cnt r g v f, route_good r -> In g gs -> host_set v -> In (gw_name g) (names_for vs r) -> gw_name g <> "mesh" ->
  (forall x, val_mem x v <-> some_mem x (gw_hosts g) /\ vs_host vs x) -> gateway_flows std_dom reg cl vs cnt r (g, v) = Some f ->
  covers (fun t => t = (vs, r, g) /\ uses false t) (fam allow_for) (fl_ingress f) /\
  covers (fun t => t = (vs, r, g) /\ uses true t) (fam allow_for) (fl_egress f) /\
  covers (fun t => t = (vs, r, g) /\ uses true t) (fam deny_for) (fl_deny f) /\ fl_mesh f = [].
Proof using R Hc HC Hp GG.
  intros vs cnt r g v f Gr Hg Hv Hn Nm Mv E. unfold gateway_flows in E. cbv zeta in E. pose proof Gr as (Gd & _ & _ & Gs). rewrite (keep_hset _ Gs) in E. fold O in E.
  set (h := match rt_sni r with Some s => vand O v s | None => v end) in E.
  assert (Mh : forall x, val_mem x h <-> bound vs r g x).
  { intros x. assert (Z : val_mem x h <-> val_mem x v /\ opt (val_mem x) (rt_sni r)).
    { unfold h. destruct (rt_sni r) as [s|]; cbn [opt] in *; [|tauto]. exact (proj1 (hset_and v s Hv Gs) x). }
    rewrite Z, Mv. unfold bound. tauto. }
  assert (Hb : (if match rt_sni r with Some _ => negb (vbool O h) | None => false end then False else True) <-> exists x, bound vs r g x).
  { destruct (rt_sni r) as [s|] eqn:Es; cbn [opt] in Gs.
    - destruct (hset_and v s Hv Gs) as (_ & M2 & _). change (vand O v s) with h in M2. destruct (vbool O h) eqn:Eb; cbn [negb].
      + split; auto. intros _. destruct (proj1 M2 eq_refl) as (x & H1 & H2). exists x. apply Mh. apply (proj1 (hset_and v s Hv Gs) x). auto.
      + split; [tauto|]. intros (x & Hx). apply Mh in Hx. apply (proj1 (hset_and v s Hv Gs) x) in Hx. assert (false = true) by (apply M2; eauto). discriminate.
    - split; auto. intros _. destruct Hv as (_ & (x & Hx) & _). exists x. apply Mh. exact Hx. }
  destruct (match rt_sni r with Some _ => negb (vbool O h) | None => false end) eqn:Eb.
  { injection E as <-. cbn [no_flows fl_ingress fl_egress fl_deny fl_mesh]. assert (N : forall eg t, ~ (t = (vs, r, g) /\ uses eg t)).
    { intros eg t [-> (_ & _ & H)]. cbn [fst snd] in H. apply Hb in H. exact H. }
    split; [|split; [|split; [|reflexivity]]]; apply covers_nil; auto. }
  assert (Bd : exists x, bound vs r g x) by (apply Hb; exact Logic.I).
  assert (Wh : host_set h).
  { unfold h in *. destruct (rt_sni r) as [s|]; auto. cbn [opt] in Gs. apply (proj2 (proj2 (hset_and v s Hv Gs))). apply negb_false_iff in Eb. exact Eb. }
  destruct (GG g Hg) as [_ Gp]. pose proof (cluster_pok _ Gp) as Pg.
  set (allow := gateway_policy _ _ false true (gw_peers g) [] _ Allow) in E.
  assert (FA : allow_for vs r g allow).
  { assert (RG : forall d, In d (rt_dests r) -> let c := route_conns std_dom reg cl (gw_peers g) d r (Some h) in
        ok c /\ regular_conns c /\ forall pt, space pt -> (pt @ c <-> pt_in (from pt) (gw_peers g) /\ request r pt /\ bound vs r g (pt 6) /\ reaches d pt)).
    { intros d Hd. destruct (route_conns_spec (gw_peers g) d r (Some h) Pg (Gd d Hd) Gr (hset_wset h Wh)) as (C1 & C2 & C3). split; [exact C1|]. split; [exact C2|].
      intros pt Sp. refine (iff_trans (C3 pt Sp) _). cbn [opt]. rewrite Mh. tauto. }
    unfold allow_for, made, allow, gateway_policy. cbn [p_kind p_ord p_ingress p_egress p_selected p_action p_ns p_affects_in p_affects_eg].
    split; [split; [reflexivity|]; split; [reflexivity|]; split; [intros q []|]; split; [|exact Gp]|].
    - intros q Hq. apply in_map_iff in Hq as (d & <- & Hd). cbn [r_props]. destruct (RG d Hd) as (C1 & C2 & _). auto.
    - repeat (split; [reflexivity|]). intros pt Sp. unfold some_rule, routed. split.
      + intros (q & Hq & Hm). apply in_map_iff in Hq as (d & <- & Hd). cbn [r_props] in Hm. destruct (RG d Hd) as (_ & _ & C3). apply (C3 pt Sp) in Hm as (H1 & H2 & H3 & H4).
        split; auto. split; auto. split; auto. exists d. auto.
      + intros (H1 & H2 & H3 & d & Hd & H4). eexists. split; [apply in_map_iff; exists d; split; [reflexivity|exact Hd]|]. cbn [r_props]. destruct (RG d Hd) as (_ & _ & C3). apply (C3 pt Sp). auto. }
  assert (One : forall (F : vservice -> route -> gateway -> pol -> Prop) P eg, gw_egress g = eg -> F vs r g P -> covers (fun t => t = (vs, r, g) /\ uses eg t) (fam F) [P]).
  { intros F P eg Eg HF. apply (covers_one _ _ (vs, r, g)); [split; [reflexivity|]; split; [exact Hg|split; [exact Eg|exact Bd]]|intros t' [Ht _]; exact Ht|exact HF]. }
  assert (No : forall F eg, gw_egress g <> eg -> covers (fun t => t = (vs, r, g) /\ uses eg t) (fam F) []).
  { intros F eg Eg. apply covers_nil. intros t [-> (_ & H & _)]. apply Eg. exact H. }
  destruct (gw_egress g) eqn:Eg.
  - destruct (match rt_internal r with Some b => b | None => false end); [discriminate|].
    destruct (plain_diff (all_group cl) (gw_peers g) (proj1 (group_cluster)) (proj1 Gp)) as (others & Ed & Po & Io). rewrite Ed in E. cbn [bind] in E. injection E as <-.
    cbn [fl_ingress fl_egress fl_deny fl_mesh]. split; [apply No; congruence|]. split; [apply One; auto|]. split; [|reflexivity]. apply One; [reflexivity|].
    assert (Co : of_cluster others) by (split; [exact Po|]; intros q Hq; apply Io in Hq as [Hq _]; apply (proj2 group_cluster); exact Hq).
    assert (RG : forall d, In d (rt_dests r) -> let c := deny_conns std_dom reg cl others (ds_pods d) in
        ok c /\ regular_conns c /\ forall pt, space pt -> (pt @ c <-> pt_in (from pt) others /\ pt_in (to pt) (ds_pods d))).
    { intros d Hd. apply deny_conns_spec; apply cluster_pok; [exact Co|apply (Gd d Hd)]. }
    unfold deny_for, made, gateway_policy. cbn [p_kind p_ord p_ingress p_egress p_selected p_action p_ns p_affects_in p_affects_eg].
    split; [split; [reflexivity|]; split; [reflexivity|]; split; [intros q []|]; split; [|exact Co]|].
    + intros q Hq. apply in_map_iff in Hq as (d & <- & Hd). cbn [r_props]. destruct (RG d Hd) as (C1 & C2 & _). auto.
    + repeat (split; [reflexivity|]). split; [exact Io|]. intros pt Sp. unfold some_rule. split.
      * intros (q & Hq & Hm). apply in_map_iff in Hq as (d & <- & Hd). cbn [r_props] in Hm. destruct (RG d Hd) as (_ & _ & C3). apply (C3 pt Sp) in Hm as (H1 & H2). split; auto. exists d. auto.
      * intros (H1 & d & Hd & H2). eexists. split; [apply in_map_iff; exists d; split; [reflexivity|exact Hd]|]. cbn [r_props]. destruct (RG d Hd) as (_ & _ & C3). apply (C3 pt Sp). auto.
  - injection E as <-. cbn [fl_ingress fl_egress fl_deny fl_mesh]. split; [apply One; auto|]. split; [apply No; congruence|]. split; [apply No; congruence|reflexivity].
Qed.
Lemma mesh_policy_spec : forall vs cnt r d, route_good r -> In d (rt_dests r) -> enter_for vs r d (mesh_policy std_dom reg cl vs cnt r d).
Proof using R Hc HC Hp.
  intros vs cnt r d Gr Hd. pose proof Gr as (Gd & _ & _ & Gs).
  assert (Ws : opt (wset 6) (rt_sni r)) by (destruct (rt_sni r); cbn [opt] in *; [apply hset_wset; exact Gs|exact Logic.I]).
  destruct (route_conns_spec (all_group cl) d r (rt_sni r) (cluster_pok _ group_cluster) (Gd d Hd) Gr Ws) as (C1 & C2 & C3).
  unfold mesh_policy. rewrite (keep_hset _ Gs). unfold enter_for, made, gateway_policy. cbn [p_kind p_ord p_ingress p_egress p_selected p_action p_ns p_affects_in p_affects_eg].
  split; [split; [reflexivity|]; split; [reflexivity|]; split; [|split; [intros q []|apply (Gd d Hd)]]|].
  - intros q [<-|[]]. cbn [r_props]. auto.
  - repeat (split; [reflexivity|]). intros pt Sp. unfold some_rule, enters. split.
    + intros (q & [<-|[]] & Hm). cbn [r_props] in Hm. apply (C3 pt Sp) in Hm. exact Hm.
    + intros H. eexists. split; [left; reflexivity|]. cbn [r_props]. apply (C3 pt Sp). exact H.
Qed.

(** One route. *)
Lemma smem_mesh : forall l, smem "mesh" l = true <-> In "mesh" l.
Proof using. intros l. apply smem_In. Qed.
Definition flag_ok (vs : vservice) (b : bool) : Prop := ~ In "mesh" (vs_gateways vs) -> b = true.
Lemma many_ok : forall l, l <> [] -> ~ In "mesh" l -> many_gateways l = true.
Proof using. intros l N H. unfold many_gateways. destruct (smem "mesh" l) eqn:E; [apply smem_mesh in E; tauto|]. destruct l; [congruence|reflexivity]. Qed.
Lemma route_flows_spec : forall vs glob b cnt r f b', vs_good vs -> route_good r -> pick_gateways std_dom gs vs (vs_gateways vs) = Some glob -> flag_ok vs b ->
  route_flows std_dom reg cl gs vs glob b cnt r = Some (f, b') -> flag_ok vs b' /\ flows_are (fun vs' r' => vs' = vs /\ r' = r) f.
Proof using R Hc HC Hp GN GG.
  intros vs glob b cnt r f b' Gv Gr Eg Fb E. unfold route_flows in E.
  match type of E with bind ?e _ = _ => destruct e as [[[mesh b1] l]|] eqn:Eq; [|discriminate] end. cbn [bind] in E.
  assert (X : pick_gateways std_dom gs vs (names_for vs r) = Some l /\ flag_ok vs b1 /\ (mesh || negb b1 = true <-> In "mesh" (names_for vs r))).
  { unfold names_for. destruct (rt_gateways r) as [|n t].
    - injection Eq as <- <- <-. split; auto. split; auto. rewrite orb_true_iff, smem_mesh. split; auto. intros [H|H]; auto.
      destruct (in_dec string_dec "mesh" (vs_gateways vs)) as [|N]; auto. rewrite (Fb N) in H. discriminate.
    - cbv zeta in Eq. set (names := n :: t) in *. destruct (pick_gateways std_dom gs vs names) as [l'|]; [|discriminate]. cbn [bind] in Eq. injection Eq as <- <- <-.
      split; auto. split; [intros N; rewrite (Fb N); reflexivity|]. change (smem "mesh" names || negb (b || many_gateways names) = true <-> In "mesh" names). rewrite orb_true_iff, smem_mesh. split; auto. intros [H|H]; auto.
      destruct (in_dec string_dec "mesh" names) as [|N]; auto. rewrite (many_ok names) in H by (auto; discriminate). rewrite orb_true_r in H. discriminate. }
  destruct X as (Ep & Fb1 & Hm). clear Eq.
  match type of E with bind ?e _ = _ => destruct e as [f0|] eqn:Ef; [|discriminate] end. cbn [bind] in E. injection E as <- <-. split; [exact Fb1|].
  destruct (pick_spec vs (names_for vs r) l Gv Ep) as [P1 P2].
  assert (Y : forall l f1 f0, (forall g v, In (g, v) l -> In g gs /\ host_set v /\ In (gw_name g) (names_for vs r) /\ gw_name g <> "mesh" /\ forall x, val_mem x v <-> some_mem x (gw_hosts g) /\ vs_host vs x) ->
    fold_left (fun acc gh => bind acc (fun f => bind (gateway_flows std_dom reg cl vs cnt r gh) (fun f' => Some (add_flows f f')))) l (Some f1) = Some f0 ->
    forall D : vservice * route * gateway -> Prop,
    covers (fun t => D t /\ uses false t) (fam allow_for) (fl_ingress f1) -> covers (fun t => D t /\ uses true t) (fam allow_for) (fl_egress f1) ->
    covers (fun t => D t /\ uses true t) (fam deny_for) (fl_deny f1) -> fl_mesh f1 = [] ->
    covers (fun t => (D t \/ exists g v, In (g, v) l /\ t = (vs, r, g)) /\ uses false t) (fam allow_for) (fl_ingress f0) /\
    covers (fun t => (D t \/ exists g v, In (g, v) l /\ t = (vs, r, g)) /\ uses true t) (fam allow_for) (fl_egress f0) /\
    covers (fun t => (D t \/ exists g v, In (g, v) l /\ t = (vs, r, g)) /\ uses true t) (fam deny_for) (fl_deny f0) /\ fl_mesh f0 = []).
  { clear - R Hc HC Hp GG Gr O L. induction l as [|[g v] l IH]; intros f1 f0 G E D A1 A2 A3 A4.
    - cbn [fold_left] in E. injection E as <-. assert (Q : forall t, D t <-> D t \/ exists g (v : val), In (g, v) [] /\ t = (vs, r, g)) by (intros t; split; auto; intros [H|(g & v & [] & _)]; auto).
      split; [|split; [|split; [|exact A4]]]; (eapply covers_ext; [|eassumption]); intros t; cbv beta; rewrite <- Q; tauto.
    - cbn [fold_left] in E. cbn [bind] in E. destruct (G g v (or_introl eq_refl)) as (G1 & G2 & G3 & G4 & G5).
      destruct (gateway_flows std_dom reg cl vs cnt r (g, v)) as [f2|] eqn:E2.
      2:{ exfalso. clear - E. cbn [bind] in E. induction l as [|a t IH]; [discriminate|]. cbn [fold_left bind] in E. auto. }
      cbn [bind] in E. destruct (gateway_flows_spec vs cnt r g v f2 Gr G1 G2 G3 G4 G5 E2) as (B1 & B2 & B3 & B4).
      assert (Q : forall t, (D t \/ exists g' v', In (g', v') ((g, v) :: l) /\ t = (vs, r, g')) <-> ((D t \/ t = (vs, r, g)) \/ exists g' v', In (g', v') l /\ t = (vs, r, g'))).
      { intros t. split.
        - intros [H|(g' & v' & [H|H] & ->)]; [auto|injection H as <- <-; auto|right; eauto].
        - intros [[H| ->]|(g' & v' & H & ->)]; [auto|right; exists g, v; split; [left; reflexivity|reflexivity]|right; exists g', v'; split; [right; exact H|reflexivity]]. }
      destruct (IH (add_flows f1 f2) f0 (fun g' v' H => G g' v' (or_intror H)) E (fun t => D t \/ t = (vs, r, g))) as (C1 & C2 & C3 & C4).
      + eapply covers_app; [exact A1|exact B1|]. intros t. cbv beta. tauto.
      + eapply covers_app; [exact A2|exact B2|]. intros t. cbv beta. tauto.
      + eapply covers_app; [exact A3|exact B3|]. intros t. cbv beta. tauto.
      + cbn [add_flows fl_mesh]. rewrite A4, B4. reflexivity.
      + split; [|split; [|split; [|exact C4]]]; (eapply covers_ext; [|eassumption]); intros t; cbv beta; rewrite Q; tauto. }
  assert (Gl : forall g v, In (g, v) l -> In g gs /\ host_set v /\ In (gw_name g) (names_for vs r) /\ gw_name g <> "mesh" /\ forall x, val_mem x v <-> some_mem x (gw_hosts g) /\ vs_host vs x).
  { intros g v H. destruct (P1 g v H) as ((M1 & M2 & M3 & _) & M4 & M5). repeat (split; [assumption|]). exact M5. }
  destruct (Y l no_flows f0 Gl Ef (fun _ => False)) as (C1 & C2 & C3 & C4); [apply covers_nil; tauto|apply covers_nil; tauto|apply covers_nil; tauto|reflexivity|]. clear Y.
  assert (Q : forall eg t, ((False \/ exists g v, In (g, v) l /\ t = (vs, r, g)) /\ uses eg t) <-> (fst (fst t) = vs /\ snd (fst t) = r) /\ uses eg t).
  { intros eg t. split.
    - intros [[[]|(g & v & H & ->)] U]. cbn [fst snd]. auto.
    - intros [[<- <-] U]. split; [|exact U]. right. destruct t as [[vs' r'] g]. cbn [fst snd] in *. destruct U as (U1 & U2 & x & (U3 & U4 & U5 & U6 & _)). cbn [fst snd] in *.
      destruct (P2 g) as (v & Hv); [split; [exact U1|]; split; [exact U3|]; split; [exact U4|]; exists x; auto|]. exists g, v. auto. }
  unfold flows_are, add_flows. cbn [fl_ingress fl_mesh fl_egress fl_deny]. rewrite !app_nil_r, C4. cbn [app].
  split; [eapply covers_ext; [|exact C1]; exact (Q false)|]. split; [eapply covers_ext; [|exact C2]; exact (Q true)|]. split; [eapply covers_ext; [|exact C3]; exact (Q true)|].
  assert (Int : (match rt_internal r with Some b0 => b0 | None => false end) = true <-> rt_internal r = Some true) by (destruct (rt_internal r) as [[|]|]; split; congruence).
  unfold enters_at, into_gateway. destruct ((mesh || negb b1) && match rt_internal r with Some b0 => b0 | None => false end) eqn:Em.
  - apply andb_true_iff in Em as [Em1 Em2]. apply Hm in Em1. apply Int in Em2. split.
    + intros P HP. apply in_map_iff in HP as (d & <- & Hd). apply filter_In in Hd as [Hd Ed]. apply String.eqb_eq in Ed. exists (vs, r, d). split; [|apply mesh_policy_spec; auto]. cbn [fst snd]. auto.
    + intros [[vs' r'] d] ((V1 & V2) & (V3 & V4 & V5 & V6)). cbn [fst snd] in *. subst vs' r'. exists (mesh_policy std_dom reg cl vs cnt r d). split; [|apply mesh_policy_spec; auto].
      apply in_map_iff. exists d. split; auto. apply filter_In. split; auto. unfold is_egress_gateway. rewrite V6. reflexivity.
  - apply covers_nil. intros [[vs' r'] d] ((V1 & V2) & (V3 & V4 & V5 & V6)). cbn [fst snd] in *. subst vs' r'. apply Hm in V3. apply Int in V4. rewrite V3, V4 in Em. discriminate.
Qed.
Lemma routes_flows_spec : forall vs glob, vs_good vs -> pick_gateways std_dom gs vs (vs_gateways vs) = Some glob -> forall rs b cnt f, (forall r, In r rs -> route_good r) -> flag_ok vs b ->
  routes_flows std_dom reg cl gs vs glob b cnt rs = Some f -> flows_are (fun vs' r' => vs' = vs /\ In r' rs) f.
Proof using R Hc HC Hp GN GG.
  intros vs glob Gv Eg. induction rs as [|r rs IH]; intros b cnt f Gr Fb E; cbn [routes_flows] in E.
  - injection E as <-. apply flows_none. intros vs' r' [_ []].
  - destruct (route_flows std_dom reg cl gs vs glob b cnt r) as [[f1 b1]|] eqn:E1; [|discriminate]. cbn [bind snd fst] in E.
    destruct (routes_flows std_dom reg cl gs vs glob b1 (cnt + 1) rs) as [f2|] eqn:E2; [|discriminate]. cbn [bind] in E. injection E as <-.
    destruct (route_flows_spec vs glob b cnt r f1 b1 Gv (Gr r (or_introl eq_refl)) Eg Fb E1) as [Fb1 F1]. pose proof (IH b1 _ f2 (fun r' H => Gr r' (or_intror H)) Fb1 E2) as F2.
    eapply flows_app; [exact F1|exact F2|]. intros vs' r'. cbn [In]. split; [intros [-> [<-|H]]; auto|intros [[-> ->]|[-> H]]; auto].
Qed.
Lemma vs_flows_spec : forall vs f, vs_good vs -> vs_flows std_dom reg cl gs vs = Some f -> flows_are (fun vs' r' => vs' = vs /\ In r' (routes_of vs)) f.
Proof using R Hc HC Hp GN GG.
  intros vs f Gv E. unfold vs_flows in E. destruct (pick_gateways std_dom gs vs (vs_gateways vs)) as [glob|] eqn:Eg; [|discriminate]. cbn [bind] in E.
  assert (Fb : flag_ok vs (many_gateways (vs_gateways vs))) by (intros N; apply many_ok; [apply Gv|exact N]).
  destruct (routes_flows std_dom reg cl gs vs glob _ 1 (vs_http vs)) as [a|] eqn:Ea; [|discriminate]. cbn [bind] in E.
  destruct (routes_flows std_dom reg cl gs vs glob _ 1 (vs_tls vs)) as [b|] eqn:Eb; [|discriminate]. cbn [bind] in E.
  destruct (routes_flows std_dom reg cl gs vs glob _ 1 (vs_tcp vs)) as [c|] eqn:Ec; [|discriminate]. cbn [bind] in E. injection E as <-.
  pose proof Gv as (_ & _ & Gr). unfold routes_of in *.
  assert (Fa := routes_flows_spec vs glob Gv Eg _ _ _ _ (fun r H => Gr r (in_or_app _ _ _ (or_introl H))) Fb Ea).
  assert (Fb' := routes_flows_spec vs glob Gv Eg _ _ _ _ (fun r H => Gr r (in_or_app _ _ _ (or_intror (in_or_app _ _ _ (or_introl H))))) Fb Eb).
  assert (Fc := routes_flows_spec vs glob Gv Eg _ _ _ _ (fun r H => Gr r (in_or_app _ _ _ (or_intror (in_or_app _ _ _ (or_intror H))))) Fb Ec).
  assert (Fbc : flows_are (fun vs' r' => vs' = vs /\ In r' (vs_tls vs ++ vs_tcp vs)) (add_flows b c)).
  { eapply flows_app; [exact Fb'|exact Fc|]. intros vs' r'. cbv beta. rewrite in_app_iff. tauto. }
  eapply flows_app; [exact Fa|exact Fbc|]. intros vs' r'. cbv beta. rewrite !in_app_iff. tauto.
Qed.
Lemma all_flows_spec : forall l f, (forall vs, In vs l -> vs_good vs) -> all_flows std_dom reg cl gs l = Some f -> flows_are (fun vs r => In vs l /\ In r (routes_of vs)) f.
Proof using R Hc HC Hp GN GG.
  intros l f G E. unfold all_flows in E.
  assert (X : forall l f0 I, (forall vs, In vs l -> vs_good vs) -> flows_are I f0 ->
    forall f, fold_left (fun acc vs => bind acc (fun f => bind (vs_flows std_dom reg cl gs vs) (fun f' => Some (add_flows f f')))) l (Some f0) = Some f ->
    flows_are (fun vs r => I vs r \/ In vs l /\ In r (routes_of vs)) f).
  { clear - R Hc HC Hp GN GG O L. induction l as [|vs l IH]; intros f0 I G F f E.
    - cbn [fold_left] in E. injection E as <-. eapply flows_ext; [|exact F]. intros vs r. split; auto. intros [H|[[] _]]; auto.
    - cbn [fold_left bind] in E. destruct (vs_flows std_dom reg cl gs vs) as [f1|] eqn:E1.
      2:{ exfalso. clear - E. cbn [bind] in E. induction l as [|a t IH]; [discriminate|]. cbn [fold_left bind] in E. auto. }
      cbn [bind] in E. pose proof (vs_flows_spec vs f1 (G vs (or_introl eq_refl)) E1) as F1.
      assert (F2 : flows_are (fun vs' r => I vs' r \/ vs' = vs /\ In r (routes_of vs)) (add_flows f0 f1)) by (eapply flows_app; [exact F|exact F1|intros; reflexivity]).
      eapply flows_ext; [|exact (IH _ _ (fun v H => G v (or_intror H)) F2 f E)]. intros vs' r. cbv beta. cbn [In]. split.
      + intros [[H|[-> H]]|[H1 H2]]; auto.
      + intros [H|[[<-|H1] H2]]; auto. }
  eapply flows_ext; [|exact (X l no_flows (fun _ _ => False) G (flows_none _ (fun _ _ H => H)) f E)]. intros vs r. cbv beta. tauto.
Qed.
End Facts.
