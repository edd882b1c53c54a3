(** * What the Kubernetes policy parser makes of peers, ports, rules and policies *)
From Coq Require Import ZArith List Bool Arith Lia String.
From Verif Require Import IntervalModel IntervalFacts HyperModel HyperFacts HyperOps HyperDims HyperTop HyperInst
                          PropHyperCube ConnModel ConnFacts TextModel PortProtoModel PeerModel PeerFacts PeerSetFacts
                          PolicyModel PolicyLaws PolicyFacts LayerFacts ConnAlg StdDims PropLayers YamlModel ClusterModel K8sParserModel SelectorFacts
                          ConnDict PropSelectors.
Import ListNotations.
Local Open Scope string_scope.
Local Open Scope list_scope.
Local Open Scope nat_scope.
Local Opaque min_pod_index max_pod_index min_ipv6_index max_ipv6_index max_ipv4_index v4max v6min v6max.

(** ** What the elements of a NetworkPolicy document mean (Kubernetes API reference, networking.k8s.io/v1) *)
(** The protocol of a port entry; TCP if not given. *)
Definition means_protocol (y : yaml) (pr : Z) : Prop :=
  (y = YNull \/ y = YStr "" \/ y = YStr "TCP") /\ pr = 6%Z \/ y = YStr "UDP" /\ pr = 17%Z \/ y = YStr "SCTP" /\ pr = 132%Z.
(** A port entry matches protocol [pr] and port [n] at the destination [x]. *)
Definition port_matches (named : peer -> list (string * (Z * Z))) (y : yaml) (x : point) (pr n : Z) : Prop :=
  exists m, y = YMap m /\ means_protocol (yget m "protocol") pr /\
    (yget m "port" = YNull \/
     (exists name, yget m "port" = YStr name /\ named_at named x name n pr) \/
     (exists a, yint (yget m "port") = Some a /\
        (yget m "endPort" = YNull /\ n = a \/ exists b, yint (yget m "endPort") = Some b /\ (a <= n <= b)%Z))).
(** An ipBlock holds the address [x]. *)
Definition block_matches (net : yaml -> option cidr) (y : yaml) (x : point) : Prop :=
  exists m c a, y = YMap m /\ net (yget m "cidr") = Some c /\ x = PA (pos a) /\ addr_ok a /\ in_cidr a c /\
    forall e ce, In e (ylist (yget m "except")) -> net e = Some ce -> ~ in_cidr a ce.
(** A peer entry of a policy of namespace [ns] matches [x]. *)
Definition peer_matches (cl : cluster) (net : yaml -> option cidr) (ns : string) (y : yaml) (x : point) : Prop :=
  exists m, y = YMap m /\
    ((yget m "ipBlock" <> YNull /\ block_matches net (yget m "ipBlock") x) \/
     (yget m "ipBlock" = YNull /\ exists q, In q (cl_peers cl) /\ (exists k i, q = Named k i /\ x = PN k i) /\
        (yget m "namespaceSelector" = YNull /\ cl_ns cl q = Some ns \/
         yget m "namespaceSelector" <> YNull /\ cl_ns cl q <> None /\ sat_sel (ns_has cl q) (yget m "namespaceSelector")) /\
        (yget m "podSelector" = YNull \/ sat_sel (pod_has cl q) (yget m "podSelector")))).
(** A rule matches a connection with the other side [x], the destination [d], protocol [pr] and destination port [n]. *)
Definition rule_matches (cl : cluster) (net : yaml -> option cidr) (ns : string) (ing : bool) (y : yaml) (x d : point) (pr n : Z) : Prop :=
  exists m, y = YMap m /\
    (let ps := ylist (yget m (if ing then "from" else "to")) in
     ps = [] /\ (member (cl_peers cl) x \/ is_addr x) \/ exists p, In p ps /\ peer_matches cl net ns p x) /\
    (let qs := ylist (yget m "ports") in qs = [] \/ exists q, In q qs /\ port_matches (cl_ports cl) q d pr n).

(** ** Documents outside the findings F43-F45 *)
Definition no_hep (cl : cluster) : Prop := forall k i, In (Named k i) (cl_peers cl) -> k = 0 \/ k = kind_dns.
Definition benign_peer (cl : cluster) (y : yaml) : Prop :=
  forall m, y = YMap m -> yget m "namespaceSelector" <> YNull ->
    ~ empty_value_sel (yget m "namespaceSelector") /\ (no_requirement (yget m "namespaceSelector") -> no_hep cl) /\
    ~ asks_key_sel (yget m "podSelector").
Definition benign_rule (cl : cluster) (ing : bool) (y : yaml) : Prop :=
  forall m p, y = YMap m -> In p (ylist (yget m (if ing then "from" else "to"))) -> benign_peer cl p.

Lemma field_of : forall m fs f, forallb (field_ok m) fs = true -> In f fs -> field_ok m f = true.
Proof. intros m fs f H Hf. rewrite forallb_forall in H. auto. Qed.
Lemma typed : forall m k u t vs, field_ok m (Field k u (Some t) vs) = true -> yget m k = YNull \/ has_type t (yget m k) = true.
Proof.
  intros m k u t vs H. unfold field_ok, yget in *. cbn [f_key f_usage f_type f_values] in H. destruct (assoc_s k m) as [v|]; auto.
  apply andb_true_iff in H as [H _]. apply andb_true_iff in H as [_ H]. apply orb_true_iff in H as [H|H]; auto. destruct v; try discriminate. auto.
Qed.
Lemma null_cases : forall y, (is_null y = true /\ y = YNull) \/ (is_null y = false /\ y <> YNull).
Proof. intros [| | | | | |]; cbn; auto; right; split; auto; discriminate. Qed.

Section Peers.
Context (cl : cluster) (Hc : cluster_ok cl) (net : yaml -> option cidr).
Context (Hnet : forall y c, net y = Some c -> cidr_ok c) (Hempty : net (YStr "") = None).
Context (reg : list peer) (HC : container reg (cl_peers cl)).

Lemma plain_pt : forall s x, plain s -> (pt_in x s <-> exists q, In q s /\ exists k i, q = Named k i /\ x = PN k i).
Proof.
  intros s [k i|y] P; cbn [pt_in].
  - split; [intros H; exists (Named k i); split; eauto|]. intros (q & Hq & k' & i' & -> & E). injection E as -> ->. auto.
  - split; [intros (l & H & _); apply P in H; discriminate|]. intros (q & _ & k' & i' & _ & E). discriminate.
Qed.
Lemma plain_pok : forall s, plain s -> (forall q, In q s -> In q (cl_peers cl)) -> pok reg s.
Proof. intros s P H. split; [apply plain_ok; auto|]. intros k n Hk. apply HC. auto. Qed.

Lemma nets_spec : forall l es, nets net l = Some es -> Forall cidr_ok es /\
  forall c, In c es <-> exists e, In e l /\ net e = Some c.
Proof.
  induction l as [|y l IH]; intros es E; cbn [nets] in E.
  - injection E as <-. split; [constructor|]. intros c. split; [intros []|intros (e & [] & _)].
  - destruct (net y) as [c|] eqn:Ey; [|discriminate]. cbn [bind] in E. destruct (nets net l) as [r|] eqn:Er; [|discriminate].
    injection E as <-. destruct (IH r eq_refl) as [F M]. split; [constructor; eauto|]. intros c'. cbn [In]. rewrite M. split.
    + intros [<-|(e & He & Ee)]; eauto.
    + intros (e & [<-|He] & Ee); [left; congruence|right; eauto].
Qed.
Lemma block_spec : forall y s, parse_ip_block net y = Some s -> pok reg s /\ forall x, pt_in x s <-> block_matches net y x.
Proof.
  intros y s E. unfold parse_ip_block in E. destruct (check_fields y _) as [m|] eqn:Ec; [|discriminate]. cbn [bind] in E.
  apply check_fields_map in Ec as [-> F]. destruct (ytrue (yget m "cidr")) eqn:Et; cbn [negb] in E.
  - destruct (net (yget m "cidr")) as [c|] eqn:En; [|discriminate]. cbn [bind] in E.
    destruct (nets net (ylist (yget m "except"))) as [es|] eqn:Es; [|discriminate]. cbn [bind] in E.
    destruct (nets_spec _ _ Es) as [Fe Me]. pose proof (Hnet _ _ En) as Oc.
    assert (Ip : ipset []) by (split; [exact I|intros z Hz; apply mem_nil in Hz; tauto]).
    destruct (add_cidr_ok es [] c Ip Oc Fe) as [A1 A2].
    assert (Fam : Forall (fun e => c6 e = c6 c) es).
    { destruct (Forall_Exists_dec (fun e => c6 e = c6 c) (fun e => Bool.bool_dec (c6 e) (c6 c)) es) as [H|H]; auto.
      rewrite (A2 H) in E. discriminate. }
    destruct (A1 Fam) as (r & Er & Ir & Mr). rewrite Er in E. cbn [bind] in E. injection E as <-. split.
    + split; [intros l [El|[]]; injection El as <-; auto|]. intros k n [H|[]]. discriminate.
    + intros [k n|z]; cbn [pt_in].
      * split; [intros [H|[]]; discriminate|]. intros (m' & c' & a & _ & _ & H & _). discriminate.
      * split.
        -- intros (l & [El|[]] & Hz). injection El as <-. destruct (pos_surj z (proj2 Ir z Hz)) as (a & Ha & <-).
           apply Mr in Hz as [[Hz|Hz] N]; auto; [apply mem_nil in Hz; tauto|]. exists m, c, a. do 5 (split; [auto|]).
           intros e ce He Ee Hi. apply N. apply Exists_exists. exists ce. split; auto. apply Me. eauto.
        -- intros (m' & c' & a & Em & En' & Ex & Ha & Hi & N). injection Em as <-. injection Ex as ->. assert (c' = c) by congruence. subst c'.
           exists r. split; [left; auto|]. apply Mr; auto. split; auto. intros X. apply Exists_exists in X as (ce & Hce & X).
           apply Me in Hce as (e & He & Ee). exact (N e ce He Ee X).
  - injection E as <-. split.
    + split; [intros l [El|[]]; injection El as <-; split; [exact I|intros z Hz; apply mem_nil in Hz; tauto]|]. intros k n [H|[]]. discriminate.
    + assert (Ed : yget m "cidr" = YStr "").
      { pose proof (field_of _ _ _ F (or_introl eq_refl)) as F1. destruct (typed _ _ _ _ _ F1) as [H|H].
        - unfold field_ok in F1. cbn [f_key f_usage f_type f_values] in F1. unfold yget in H. destruct (assoc_s "cidr" m) as [v|]; [|discriminate]. subst v. discriminate.
        - destruct (yget m "cidr") as [| | | |t| |]; try discriminate. destruct t; [auto|discriminate]. }
      intros x. split.
      * intros H. exfalso. destruct x as [k n|z]; cbn [pt_in] in H; [destruct H as [H|[]]; discriminate|].
        destruct H as (l & [El|[]] & Hz). injection El as <-. apply mem_nil in Hz. auto.
      * intros (m' & c & a & Em & En & _). injection Em as <-. rewrite Ed, Hempty in En. discriminate.
Qed.

Theorem peer_spec : forall ns y s, parse_peer cl net ns y = Some s -> benign_peer cl y ->
  pok reg s /\ forall x, pt_in x s <-> peer_matches cl net ns y x.
Proof.
  intros ns y s E B. pose proof (cluster_plain cl Hc) as Pl. unfold parse_peer in E. destruct (check_fields y _) as [m|] eqn:Ec; [|discriminate]. cbn [bind] in E.
  apply check_fields_map in Ec as [-> F]. cbv zeta in E.
  pose proof (typed _ _ _ _ _ (field_of _ _ _ F (or_introl eq_refl))) as Tp.
  pose proof (typed _ _ _ _ _ (field_of _ _ _ F (or_intror (or_introl eq_refl)))) as Tn.
  assert (UM : forall X : Prop, (exists m', YMap m = YMap m' /\ X) <-> X).
  { intros X. split; [intros (_ & _ & H); auto|]. intros H. exists m. auto. }
  assert (PM : forall x, peer_matches cl net ns (YMap m) x <->
    ((yget m "ipBlock" <> YNull /\ block_matches net (yget m "ipBlock") x) \/
     (yget m "ipBlock" = YNull /\ exists q, In q (cl_peers cl) /\ (exists k i, q = Named k i /\ x = PN k i) /\
        (yget m "namespaceSelector" = YNull /\ cl_ns cl q = Some ns \/
         yget m "namespaceSelector" <> YNull /\ cl_ns cl q <> None /\ sat_sel (ns_has cl q) (yget m "namespaceSelector")) /\
        (yget m "podSelector" = YNull \/ sat_sel (pod_has cl q) (yget m "podSelector"))))).
  { intros x. unfold peer_matches. split; [intros (m' & Em & H); injection Em as <-; exact H|]. intros H. exists m. split; auto. }
  specialize (B m eq_refl). clear UM F.
  set (pod := yget m "podSelector") in *. set (nss := yget m "namespaceSelector") in *. set (ipb := yget m "ipBlock") in *.
  destruct (is_null pod && is_null nss && is_null ipb) eqn:En; [discriminate|].
  destruct (null_cases ipb) as [[Ei Ni]|[Ei Ni]]; rewrite Ei in E; cbn [negb] in E.
  2:{ destruct (negb (is_null pod) || negb (is_null nss)); [discriminate|]. destruct (block_spec _ _ E) as [P M]. split; auto.
      intros x. rewrite M, PM. tauto. }
  (* the namespace part *)
  assert (NS : forall r, (if is_null nss then Some (namespace_pods cl (Some ns)) else parse_label_selector cl ns true nss) = Some r ->
    plain r /\ forall q, In q r <-> In q (cl_peers cl) /\ is_dns q = false /\
      (nss = YNull /\ cl_ns cl q = Some ns \/ nss <> YNull /\ cl_ns cl q <> None /\ sat_sel (ns_has cl q) nss)).
  { intros r Er. destruct (null_cases nss) as [[E1 N1]|[E1 N1]]; rewrite E1 in Er.
    - injection Er as <-. split; [apply select_plain; auto|]. intros q. unfold namespace_pods. rewrite select_In. cbn [ns_is].
      assert (X : (match cl_ns cl q with Some m => String.eqb m ns | None => false end) = true <-> cl_ns cl q = Some ns).
      { destruct (cl_ns cl q) as [m0|]; [|split; discriminate]. rewrite String.eqb_eq. split; congruence. }
      rewrite X. pose proof (in_ns_not_dns cl q ns Hc). tauto.
    - assert (Ty : has_type TyDict nss = true) by tauto. destruct (ns_selector cl Pl ns nss r Ty Er) as (P1 & P2 & P3 & P4). split; auto.
      destruct (B N1) as (B1 & B2 & _).
      assert (NN : forall q, In q r -> cl_ns cl q <> None).
      { intros q Hq. destruct (P2 q Hq) as [H1 H2]. destruct (Hc q H1) as (k & i & -> & Hk). apply Hk.
        assert (D : no_requirement nss \/ ~ no_requirement nss).
        { unfold no_requirement. destruct nss as [| | | | | |mm]; try (right; intros (m' & Em & _); discriminate).
          destruct (ylist (yget mm "matchExpressions")) eqn:EL; [|right; intros (m' & Em & _ & EE); injection Em as <-; rewrite EL in EE; discriminate].
          destruct (yget mm "matchLabels") as [| | | | | |[|kv tl]] eqn:EM; try (left; exists mm; split; auto; split; [congruence|auto]).
          right. intros (m' & Em & EE & _). injection Em as <-. specialize (EE _ EM). discriminate. }
        destruct D as [D|D]; [|apply Hk; apply (P3 D); auto].
        destruct (B2 D k i H1) as [-> | ->]; [auto|discriminate]. }
      intros q. split.
      + intros Hq. destruct (P2 q Hq) as [H1 H2]. split; auto. split; auto. right. split; auto. split; [apply NN; auto|].
        apply (P4 B1 q (NN q Hq)). auto.
      + intros (H1 & H2 & [[X _]|(_ & H3 & H4)]); [congruence|]. apply (P4 B1 q H3). auto. }
  destruct (if is_null nss then Some (namespace_pods cl (Some ns)) else parse_label_selector cl ns true nss) as [r|] eqn:Er; [|discriminate].
  destruct (NS r eq_refl) as [Pr Mr]. clear NS. cbn [bind] in E.
  assert (R : forall s', plain s' -> (forall q, In q s' <-> In q r /\ (pod = YNull \/ sat_sel (pod_has cl q) pod)) ->
     pok reg s' /\ forall x, pt_in x s' <-> peer_matches cl net ns (YMap m) x).
  { intros s' Ps Ms. split.
    - apply plain_pok; auto. intros q Hq. apply Ms in Hq as [Hq _]. apply Mr in Hq. tauto.
    - intros x. rewrite (plain_pt s' x Ps), PM. split.
      + intros (q & Hq & X). right. split; auto. exists q. apply Ms in Hq as [Hq Y]. apply Mr in Hq as (H1 & H2 & H3). auto.
      + intros [[X _]|(_ & q & H1 & X & H2 & H3)]; [congruence|]. exists q. split; auto. apply Ms. split; auto. apply Mr. split; auto. split; auto.
        destruct H2 as [[_ H2]|(_ & H2 & _)]; [apply (in_ns_not_dns cl q ns); auto|].
        destruct (cl_ns cl q) as [n|] eqn:Eq; [|congruence]. apply (in_ns_not_dns cl q n); auto. }
  destruct (null_cases pod) as [[E1 N1]|[E1 N1]]; rewrite E1 in E.
  - injection E as <-. apply R; auto. intros q. tauto.
  - destruct (parse_label_selector cl ns false pod) as [sp|] eqn:Esp; [|discriminate]. cbn [bind] in E.
    assert (Ty : has_type TyDict pod = true) by tauto. destruct (pod_selector cl Pl ns pod sp Ty Esp) as [Pp Mp].
    destruct (plain_inter sp r Pp Pr) as (t & Et & Pt & Mt). rewrite Et in E. injection E as <-. apply R; auto.
    intros q. rewrite Mt, Mp. split.
    + intros ((H1 & H2 & H3 & H4) & H5). auto.
    + intros (H5 & [X|H3]); [congruence|]. pose proof (proj1 (Mr q) H5) as (H1 & H2 & H6). split; auto. split; auto. split; auto. split; auto.
      intros HK. destruct H6 as [[_ H6]|(N2 & _)]; auto. destruct (B N2) as (_ & _ & B3). contradiction.
Qed.
End Peers.

(** ** Ports *)
Lemma proto_number : get_protocol_number (ProtoName "TCP") = Some 6%Z /\ get_protocol_number (ProtoName "UDP") = Some 17%Z /\
  get_protocol_number (ProtoName "SCTP") = Some 132%Z.
Proof. repeat apply conj; vm_compute; reflexivity. Qed.
Lemma add_one_interval : forall a b, (a <= b)%Z -> add_interval [] (Ivl a b) = Some [Ivl a b].
Proof. intros a b H. cbn. destruct (b <? a)%Z eqn:E; [lia|]. reflexivity. Qed.
Lemma one_mem : forall n a b, mem n [Ivl a b] <-> (a <= n <= b)%Z.
Proof. intros n a b. rewrite mem_cons, mem_nil. cbn [lo hi]. tauto. Qed.

(** The entry's protocol, when the entry is accepted. *)
Lemma protocol_spec : forall m vs, field_ok m (Field "protocol" Optional (Some TyStr) (Some (among ["TCP"; "UDP"; "SCTP"]))) = true ->
  get_protocol_number (ProtoName (match yget m "protocol" with YStr s => if String.eqb s "" then "TCP" else s | _ => "TCP" end)) = vs ->
  exists pr, vs = Some pr /\ (0 <= pr <= 255)%Z /\ forall q, means_protocol (yget m "protocol") q <-> q = pr.
Proof.
  intros m vs F E. destruct proto_number as (N1 & N2 & N3).
  assert (C : yget m "protocol" = YNull \/ yget m "protocol" = YStr "" \/ yget m "protocol" = YStr "TCP" \/ yget m "protocol" = YStr "UDP" \/ yget m "protocol" = YStr "SCTP").
  { unfold field_ok, yget in *. cbn [f_key f_usage f_type f_values] in F. destruct (assoc_s "protocol" m) as [v|]; auto.
    cbn [andb] in F. apply andb_true_iff in F as [F1 F2]. destruct v as [| | | |t| |]; try discriminate; auto. right.
    apply orb_true_iff in F2 as [F2|F2].
    - left. cbn in F2. apply negb_true_iff, negb_false_iff, String.eqb_eq in F2. subst. auto.
    - apply smem_In in F2. destruct F2 as [<-|[<-|[<-|[]]]]; auto. }
  unfold means_protocol. destruct C as [C|[C|[C|[C|C]]]]; rewrite C in *; cbn [String.eqb] in E.
  - rewrite N1 in E. exists 6%Z. split; [auto|]. split; [lia|]. intros q. split; [intros [[_ H]|[[H _]|[H _]]]; try discriminate; auto|auto].
  - rewrite N1 in E. exists 6%Z. split; [auto|]. split; [lia|]. intros q. split; [intros [[_ H]|[[H _]|[H _]]]; try discriminate; auto|auto].
  - change (if String.eqb "TCP" "" then "TCP" else "TCP") with "TCP" in E. rewrite N1 in E. exists 6%Z. split; [auto|]. split; [lia|]. intros q. split; [intros [[_ H]|[[H _]|[H _]]]; try discriminate; auto|auto].
  - change (if String.eqb "UDP" "" then "TCP" else "UDP") with "UDP" in E. rewrite N2 in E. exists 17%Z. split; [auto|]. split; [lia|]. intros q. split; [intros [[[H|[H|H]] _]|[[_ H]|[H _]]]; try discriminate; auto|auto].
  - change (if String.eqb "SCTP" "" then "TCP" else "SCTP") with "SCTP" in E. rewrite N3 in E. exists 132%Z. split; [auto|]. split; [lia|]. intros q. split; [intros [[[H|[H|H]] _]|[[H _]|[_ H]]]; try discriminate; auto|auto].
Qed.
Theorem port_spec : forall y pr0 ps, parse_port y = Some (pr0, ps) ->
  (0 <= pr0 <= 255)%Z /\ in_range 1 65535 (port_set ps) /\ excluded_named_ports ps = [] /\
  forall named x pr n, (1 <= n <= 65535)%Z ->
    (port_matches named y x pr n <-> pr = pr0 /\ dport_in named (eq pr0) x ps n).
Proof.
  intros y pr0 ps E. unfold parse_port in E. destruct (check_fields y _) as [m|] eqn:Ec; [|discriminate]. cbn [bind] in E.
  apply check_fields_map in Ec as [-> F]. cbv zeta in E.
  destruct (protocol_spec m _ (field_of _ _ _ F (or_intror (or_introl eq_refl))) eq_refl) as (pr1 & Epr & R & MP). rewrite Epr in E. cbn [bind] in E.
  pose proof (typed _ _ _ _ _ (field_of _ _ _ F (or_intror (or_intror (or_introl eq_refl))))) as Te. clear F Epr.
  assert (PM : forall named x pr n, port_matches named (YMap m) x pr n <-> pr = pr1 /\
    (yget m "port" = YNull \/
     (exists name, yget m "port" = YStr name /\ named_at named x name n pr1) \/
     (exists a, yint (yget m "port") = Some a /\
        (yget m "endPort" = YNull /\ n = a \/ exists b, yint (yget m "endPort") = Some b /\ (a <= n <= b)%Z)))).
  { intros named x pr n. unfold port_matches. split.
    - intros (m' & Em & H1 & H2). injection Em as <-. apply MP in H1. subst pr. auto.
    - intros (-> & H). exists m. split; auto. split; [apply MP; auto|exact H]. }
  clear MP. set (port := yget m "port") in *. set (last := yget m "endPort") in *.
  match type of E with bind ?e _ = _ => destruct e as [ps1|] eqn:Ep; [|discriminate] end. cbn [bind] in E. injection E as <- <-.
  split; auto.
  assert (D0 : forall named x s n, dport_in named (eq pr1) x (PortSet s [] []) n <-> mem n s).
  { intros named x s n. unfold dport_in. cbn [port_set named_ports]. split; [intros [H|(nm & pr & [] & _)]; auto|auto]. }
  assert (IR : forall a b, (1 <= a)%Z -> (a <= b)%Z -> (b <= 65535)%Z -> in_range 1 65535 [Ivl a b]).
  { intros a b H1 H2 H3. split; [cbn; lia|]. intros z Hz. apply one_mem in Hz. lia. }
  destruct (null_cases port) as [[E1 N1]|[E1 N1]]; rewrite E1 in Ep; cbn [negb andb] in Ep.
  - destruct (ytrue last); [discriminate|]. injection Ep as <-. unfold ps_new, all_ports_interval. cbn [port_set excluded_named_ports]. split; [apply (IR 1 65535)%Z; lia|]. split; auto.
    intros named x pr n Hn. rewrite PM, D0, one_mem. tauto.
  - destruct (null_cases last) as [[E2 N2]|[E2 N2]]; rewrite E2 in Ep; cbn [negb andb] in Ep.
    + destruct (yint port) as [a|] eqn:Ea.
      * assert (Ep' : (if port_in_domain a then ps_add_port (ps_new false) (PNum a) else None) = Some ps1).
        { destruct port as [| | | |t| |]; cbn in Ea; try discriminate; exact Ep. }
        destruct (port_in_domain a) eqn:Ed; [|discriminate]. unfold port_in_domain in Ed. cbn [ps_add_port ps_new port_set] in Ep'.
        rewrite add_one_interval in Ep' by lia. cbn [bind named_ports excluded_named_ports] in Ep'. injection Ep' as <-. cbn [port_set excluded_named_ports].
        split; [apply (IR a a); lia|]. split; auto. intros named x pr n Hn. rewrite PM, D0, one_mem. split.
        -- intros (-> & [H|[(nm & H & _)|(a' & Ha & [[_ ->]|(b & Hb & _)])]]); [congruence| | |].
           ++ rewrite H in Ea. discriminate.
           ++ assert (a' = a) by congruence. subst. split; auto; lia.
           ++ rewrite N2 in Hb. discriminate.
        -- intros (-> & H). split; auto. right; right. exists a. split; auto. left. split; auto. lia.
      * destruct port as [| | | |t| |] eqn:Et; try discriminate; [|cbn in Ep; discriminate..].
        destruct (port_name_ok t); [|discriminate]. injection Ep as <-. cbn [ps_new port_set named_ports excluded_named_ports sadd smem existsb sdiscard filter].
        split; [split; [exact I|intros z Hz; apply mem_nil in Hz; tauto]|]. split; auto. intros named x pr n Hn. rewrite PM. unfold dport_in. cbn [port_set named_ports].
        split.
        -- intros (-> & [H|[(nm & H & Hx)|(a' & Ha & _)]]); [discriminate H| |discriminate Ha]. injection H as ->. split; auto. right. exists nm, pr1. split; [left; reflexivity|auto].
        -- intros (-> & [H|(nm & pr2 & [<-|[]] & <- & H)]); [apply mem_nil in H; tauto|]. split; auto. right. left. eauto.
    + destruct (yint port) as [a|] eqn:Ea; [|discriminate]. destruct (yint last) as [b|] eqn:Eb; [|discriminate].
      destruct (port_in_domain a && port_in_domain b && (a <=? b)%Z) eqn:Ed; [|discriminate]. unfold port_in_domain in Ed.
      unfold ps_add_range in Ep. cbn [ps_new port_set] in Ep. rewrite add_one_interval in Ep by lia. cbn [bind named_ports excluded_named_ports] in Ep. injection Ep as <-.
      cbn [port_set excluded_named_ports]. split; [apply (IR a b); lia|]. split; auto. intros named x pr n Hn. rewrite PM, D0, one_mem. split.
      * intros (-> & [H|[(nm & H & _)|(a' & Ha & [[H _]|(b' & Hb & H)])]]); [congruence| |congruence|].
        -- rewrite H in Ea. discriminate.
        -- assert (a' = a) by congruence. assert (b' = b) by congruence. subst. auto.
      * intros (-> & H). split; auto. right; right. exists a. split; auto. right. exists b. auto.
Qed.

(** ** Rules and policies *)
Section Rules.
Context (reg : list peer) (R : reg_ok reg).
Context (cl : cluster) (Hc : cluster_ok cl) (HC : container reg (cl_peers cl)).
Context (Hp : forall p nm n pr, assoc_s nm (cl_ports cl p) = Some (n, pr) -> (1 <= n <= 65535)%Z).
Context (net : yaml -> option cidr) (Hnet : forall y c, net y = Some c -> cidr_ok c) (Hempty : net (YStr "") = None).
Let K := std_alg reg R.
Let A := cube_ops std_dom std_all reg.
Let W := cube_laws std_dom std_rest reg reg std_peers [Ivl 0 255] K.
Notation space := (a_space std_dom).
Notation from := (a_src reg).
Notation to := (a_dst reg).
Notation ok := (a_ok std_dom std_rest).
(** make_conn_props_from_dict({"dst_ports": .., "protocols": .., "src_peers": .., "dst_peers": ..}), K8sPolicyYamlParser.py:339-341. *)
Definition port_conns (s d : peerset) (pr : Z) (ps : portset) : hc val :=
  conns_of std_dom reg (cl_ports cl) (CDict (Some s) (Some d) (Some [Ivl pr pr]) None (Some ps) None None None None None).
Lemma port_conns_spec : forall s d pr ps, pok reg s -> pok reg d -> (0 <= pr <= 255)%Z -> in_range 1 65535 (port_set ps) -> excluded_named_ports ps = [] ->
  ok (port_conns s d pr ps) /\ regular_conns (port_conns s d pr ps) /\
  forall p, space p -> (p @ port_conns s d pr ps <->
    pt_in (from p) s /\ pt_in (to p) d /\ p 2 = pr /\ dport_in (cl_ports cl) (eq pr) (to p) ps (p 4)).
Proof using R Hp.
  intros s d pr ps Hs Hd Hr Hps Hex. set (k := CDict (Some s) (Some d) (Some [Ivl pr pr]) None (Some ps) None None None None None).
  assert (DK : dict_ok std_dom reg k).
  { constructor; cbn; auto. - split; [cbn; lia|]. intros z Hz. apply one_mem in Hz. lia. - split; [exact Hps|]. split; [exact Hex|]. intros _. discriminate. }
  destruct (std_conns_of_spec reg R (cl_ports cl) Hp k DK) as [O M]. split; [exact O|]. split; [exact (std_conns_of_regular reg R (cl_ports cl) Hp k DK)|].
  intros p Sp. unfold port_conns. fold k. rewrite (M p Sp). unfold dict_rest. cbn [k k_src k_dst k_proto k_sports k_dports k_methods k_hosts k_paths k_type k_code opt].
  rewrite one_mem.
  assert (X : dport_in (cl_ports cl) (fun q => val_mem q (dict_cube std_dom reg k 2)) (to p) ps (p 4) <-> dport_in (cl_ports cl) (eq pr) (to p) ps (p 4)).
  { unfold dport_in. cbn [dict_cube k k_proto or_dom val_mem]. split; intros [H|(nm & q & H1 & H2 & H3)]; auto; right; exists nm, q; (split; [auto|]); (split; [|auto]).
    - apply one_mem in H2. lia.
    - apply one_mem. lia. }
  rewrite X. split.
  - intros ((H1 & H2 & H3 & _) & H4). repeat split; auto. lia.
  - intros (H1 & H2 & H3 & H4). split; auto. repeat split; auto; lia.
Qed.

Theorem rule_spec : forall ns ing sel y r, pok reg sel -> parse_rule cl net A port_conns ns ing sel y = Some r -> benign_rule cl ing y ->
  r_action r = Allow /\ ok (r_props r) /\ regular_conns (r_props r) /\
  forall pt, space pt -> (pt @ r_props r <->
    pt_in (if ing then to pt else from pt) sel /\ rule_matches cl net ns ing y (if ing then from pt else to pt) (to pt) (pt 2) (pt 4)).
Proof using R Hc HC Hp Hnet Hempty.
  intros ns ing sel y r Psel E B. unfold parse_rule in E. destruct (check_fields y _) as [m|] eqn:Ec; [|discriminate]. cbn [bind] in E.
  apply check_fields_map in Ec as [-> F]. set (key := if ing then "from" else "to") in *.
  assert (B' : forall p, In p (ylist (yget m key)) -> benign_peer cl p) by (intros p; apply (B m p eq_refl)). clear B F.
  assert (RM : forall x d pr n, rule_matches cl net ns ing (YMap m) x d pr n <->
    (ylist (yget m key) = [] /\ (member (cl_peers cl) x \/ is_addr x) \/ exists p, In p (ylist (yget m key)) /\ peer_matches cl net ns p x) /\
    (ylist (yget m "ports") = [] \/ exists q, In q (ylist (yget m "ports")) /\ port_matches (cl_ports cl) q d pr n)).
  { intros x d pr n. unfold rule_matches. split; [intros (m' & Em & H); injection Em as <-; exact H|intros H; exists m; split; [reflexivity|exact H]]. }
  set (peers := ylist (yget m key)) in *. set (ports := ylist (yget m "ports")) in *.
  match type of E with bind ?e _ = _ => destruct e as [res|] eqn:Er; [|discriminate] end. cbn [bind] in E. cbv zeta in E.
  (* the peers *)
  assert (PR : pok reg res /\ forall x, pt_in x res <-> (peers = [] /\ (member (cl_peers cl) x \/ is_addr x) \/ exists p, In p peers /\ peer_matches cl net ns p x)).
  { clearbody peers. destruct peers as [|p0 pl].
    - injection Er as <-. destruct (peers_group_spec reg (cl_peers cl) true true HC) as [G1 G2]. split; auto. intros x. rewrite G2. split.
      + intros [[H _]|[_ H]]; left; auto.
      + intros [[_ [H|H]]|(p & [] & _)]; auto.
    - assert (G : forall l acc, pok reg acc -> (forall p, In p l -> benign_peer cl p) ->
        fold_left (fun acc p => bind acc (fun r => bind (parse_peer cl net ns p) (fun s => Some (ps_union r s)))) l (Some acc) = Some res ->
        pok reg res /\ forall x, pt_in x res <-> pt_in x acc \/ exists p, In p l /\ peer_matches cl net ns p x).
      { induction l as [|p l IH]; intros acc Pa Bl El; cbn [fold_left] in El.
        - injection El as <-. split; auto. intros x. split; [auto|]. intros [H|(p & [] & _)]; auto.
        - cbn [bind] in El. destruct (parse_peer cl net ns p) as [s|] eqn:Es; cbn [bind] in El.
          2:{ exfalso. clear - El. induction l as [|z l IH]; [discriminate|]. cbn [fold_left bind] in El. auto. }
          destruct (peer_spec cl Hc net Hnet Hempty reg HC ns p s Es (Bl p (or_introl eq_refl))) as [Ps Ms].
          destruct (IH (ps_union acc s) (pok_union reg acc s Pa Ps) (fun z Hz => Bl z (or_intror Hz)) El) as [Pr Mr]. split; auto.
          intros x. rewrite Mr, pt_in_union, Ms. split.
          + intros [[H|H]|(z & Hz & H)]; auto; right; eauto using in_eq, in_cons.
          + intros [H|(z & [<-|Hz] & H)]; auto. right. eauto. }
      assert (P0 : pok reg []) by (split; [intros l []|intros k n []]).
      destruct (G (p0 :: pl) [] P0 B' Er) as [Pr Mr]. split; auto.
      intros x. rewrite Mr. split.
      + intros [H|H]; [destruct x as [k n|z]; cbn [pt_in] in H; [destruct H|destruct H as (l & [] & _)]|auto].
      + intros [[H _]|H]; [discriminate|auto]. }
  destruct PR as [Pres Mres]. clear Er B'.
  set (src := if ing then res else sel) in *. set (dst := if ing then sel else res) in *.
  assert (Psrc : pok reg src) by (unfold src; destruct ing; auto). assert (Pdst : pok reg dst) by (unfold dst; destruct ing; auto).
  assert (SD : forall pt, (pt_in (from pt) src /\ pt_in (to pt) dst) <-> (pt_in (if ing then to pt else from pt) sel /\ pt_in (if ing then from pt else to pt) res)).
  { intros pt. unfold src, dst. destruct ing; tauto. }
  match type of E with bind ?e _ = _ => destruct e as [props|] eqn:Ep; [|discriminate] end. cbn [bind] in E. injection E as <-. cbn [r_action r_props].
  split; auto.
  assert (PP : ok props /\ regular_conns props /\ forall pt, space pt -> (pt @ props <-> pt_in (from pt) src /\ pt_in (to pt) dst /\
     (ports = [] \/ exists q, In q ports /\ port_matches (cl_ports cl) q (to pt) (pt 2) (pt 4)))).
  { clearbody ports src dst. destruct ports as [|q0 ql].
    - assert (Eq : props = c_rect A (Some src) (Some dst) None) by congruence. clear Ep. subst props.
      split; [exact (l_rect_ok _ _ _ _ _ _ _ _ _ W (Some src) (Some dst) None Psrc Pdst)|]. split.
      + exact (make_props_cases std_dom std_rest reg reg std_peers [Ivl 0 255] K (Some src) (Some dst) None Psrc Pdst).
      + intros pt Sp. refine (iff_trans (l_rect _ _ _ _ _ _ _ _ _ W (Some src) (Some dst) None pt Psrc Pdst Sp) _). cbn [opt]. tauto.
    - assert (G : forall l acc, ok acc -> regular_conns acc ->
        fold_left (fun acc p => bind acc (fun r => bind (parse_port p) (fun q =>
                     Some (if pbool src && pbool dst then c_or A r (port_conns src dst (fst q) (snd q)) else r)))) l (Some acc) = Some props ->
        ok props /\ regular_conns props /\ forall pt, space pt -> (pt @ props <-> pt @ acc \/
          (pt_in (from pt) src /\ pt_in (to pt) dst /\ exists q, In q l /\ port_matches (cl_ports cl) q (to pt) (pt 2) (pt 4)))).
      { induction l as [|p l IH]; intros acc Oa Ra El; cbn [fold_left] in El.
        - injection El as <-. split; auto. split; auto. intros pt Sp. split; [auto|]. intros [H|(_ & _ & q & [] & _)]; auto.
        - cbn [bind] in El. destruct (parse_port p) as [[pr ps]|] eqn:Es; cbn [bind] in El.
          2:{ exfalso. clear - El. induction l as [|z l IH]; [discriminate|]. cbn [fold_left bind] in El. auto. }
          cbn [fst snd] in El. destruct (port_spec p pr ps Es) as (Hr & Hi & Hx & MP).
          destruct (port_conns_spec src dst pr ps Psrc Pdst Hr Hi Hx) as (O1 & R1 & M1).
          set (acc' := if pbool src && pbool dst then c_or A acc (port_conns src dst pr ps) else acc) in El.
          assert (N : ok acc' /\ regular_conns acc' /\ forall pt, space pt -> (pt @ acc' <-> pt @ acc \/
             (pt_in (from pt) src /\ pt_in (to pt) dst /\ port_matches (cl_ports cl) p (to pt) (pt 2) (pt 4)))).
          { assert (PM : forall pt, space pt -> (pt @ port_conns src dst pr ps <-> (pt_in (from pt) src /\ pt_in (to pt) dst /\ port_matches (cl_ports cl) p (to pt) (pt 2) (pt 4)))).
            { intros pt Sp. rewrite (M1 pt Sp), MP; [tauto|]. pose proof (Sp 4) as S4. apply one_mem in S4. lia. }
            unfold acc'. destruct (pbool src && pbool dst) eqn:Eb.
            - split; [exact (l_or_ok _ _ _ _ _ _ _ _ _ W acc _ Oa O1)|]. split; [exact (or_regular std_dom reg reg std_peers K acc _ Oa O1 Ra R1)|].
              intros pt Sp. refine (iff_trans (l_or _ _ _ _ _ _ _ _ _ W acc _ pt Oa O1 Sp) _). rewrite (PM pt Sp). tauto.
            - split; auto. split; auto. intros pt Sp. split; auto. intros [H|(H1 & H2 & _)]; auto. exfalso.
              apply andb_false_iff in Eb as [Eb|Eb]; [apply (pbool_false _ (from pt) Eb H1)|apply (pbool_false _ (to pt) Eb H2)]. }
          destruct N as (N1 & N2 & N3). destruct (IH acc' N1 N2 El) as (I1 & I2 & I3). split; auto. split; auto.
          intros pt Sp. rewrite (I3 pt Sp), (N3 pt Sp). split.
          + intros [[H|(H1 & H2 & H3)]|(H1 & H2 & q & Hq & H3)]; auto; right; (split; [auto|]); (split; [auto|]); eauto using in_eq, in_cons.
          + intros [H|(H1 & H2 & q & [<-|Hq] & H3)]; auto. right. eauto. }
      destruct (G (q0 :: ql) (c_empty A) (l_empty_ok _ _ _ _ _ _ _ _ _ W) (or_introl eq_refl) Ep) as (G1 & G2 & G3). split; auto. split; auto.
      intros pt Sp. rewrite (G3 pt Sp). split.
      + intros [H|(H1 & H2 & H3)]; auto. exfalso. revert H. exact (l_empty _ _ _ _ _ _ _ _ _ W pt).
      + intros (H1 & H2 & [H|H]); [discriminate|]. right. auto. }
  destruct PP as (O1 & R1 & M1). split; auto. split; auto. intros pt Sp. rewrite (M1 pt Sp), RM. rewrite <- Mres. specialize (SD pt). tauto.
Qed.
End Rules.
