(** * What the Calico policy parser makes of a rule *)
From Coq Require Import ZArith List Bool Arith Lia String Ascii.
From Verif Require Import IntervalModel IntervalFacts HyperModel HyperFacts HyperOps HyperDims HyperTop HyperInst
                          PropHyperCube ConnModel ConnFacts TextModel TextFacts PortProtoModel PortProtoFacts PeerModel PeerFacts PeerSetFacts
                          PolicyModel PolicyLaws PolicyFacts LayerFacts ConnAlg StdDims PropLayers YamlModel ClusterModel K8sParserModel SelectorFacts
                          ConnDict NamedExcl PropSelectors K8sParserFacts CalicoSelectorModel CalicoSelectorFacts CalicoSelectorGram CalicoSelectorSets
                          CalicoParserModel CalicoParserFacts.
Import ListNotations.
Local Open Scope string_scope.
Local Open Scope list_scope.
Local Open Scope nat_scope.
Local Opaque min_pod_index max_pod_index min_ipv6_index max_ipv6_index max_ipv4_index v4max v6min v6max.

(** ** Rules outside the findings F9, F11, F12, F49 *)
Definition no_zero (y : yaml) : Prop := forall m, y = YMap m -> yint (yget m "type") <> Some 0%Z /\ yint (yget m "code") <> Some 0%Z.
Definition benign_icmp (icmp not_icmp : yaml) : Prop :=
  no_zero icmp /\ no_zero not_icmp /\
  forall mi mn, icmp = YMap mi -> not_icmp = YMap mn -> yint (yget mi "type") = yint (yget mn "type") ->
    yget mn "code" <> YNull /\ yint (yget mi "code") <> yint (yget mn "code").
Definition benign_crule (m : list (string * yaml)) : Prop :=
  benign_entity true (yget m "source") /\ benign_entity false (yget m "destination") /\
  (yget m "protocol" <> YNull -> yget m "notProtocol" <> YNull -> forall pr, means_proto (yget m "protocol") pr -> means_proto (yget m "notProtocol") pr) /\
  (yget m "icmp" <> YNull \/ yget m "notICMP" <> YNull -> means_proto (yget m "protocol") 1 \/ means_proto (yget m "protocol") 58) /\
  benign_icmp (yget m "icmp") (yget m "notICMP").
Definition action_name (a : action) : string := match a with Allow => "Allow" | Deny => "Deny" | Pass => "Pass" | Log => "Log" end.

(** ** Protocols *)
Lemma protocol_spec : forall y o, calico_protocol y = Some o ->
  (o = None /\ y = YNull) \/ exists p, o = Some p /\ (0 <= p <= 255)%Z /\ y <> YNull /\ forall pr, means_proto y pr <-> pr = p.
Proof.
  intros y o E.
  assert (Num : forall n, yint y = Some n -> (forall s, y <> YStr s) -> y <> YNull -> (if is_valid_protocol n then Some (Some n) else None) = Some o ->
    exists p, o = Some p /\ (0 <= p <= 255)%Z /\ y <> YNull /\ forall pr, means_proto y pr <-> pr = p).
  { intros n En NS NN E'. destruct (is_valid_protocol n) eqn:V; [|discriminate]. injection E' as <-. exists n. split; auto. unfold is_valid_protocol in V.
    split; [lia|]. split; auto. intros pr. unfold means_proto. rewrite En. split; [intros [H|(s & H & _)]; [congruence|destruct (NS _ H)]|intros ->; auto]. }
  destruct y as [|b|z| |s|l|m]; cbn [calico_protocol yint] in E; try discriminate.
  - injection E as <-. left. auto.
  - right. apply (Num _ eq_refl); auto; discriminate.
  - right. apply (Num _ eq_refl); auto; discriminate.
  - right. destruct (smem s _) eqn:Es; [|discriminate]. apply smem_In in Es.
    assert (G : forall s p, In (s, p) calico_protocols -> get_protocol_number (ProtoName s) = Some p /\ (0 <= p <= 255)%Z /\ forall pr, In (s, pr) calico_protocols <-> pr = p).
    { intros s' p [H|[H|[H|[H|[H|[H|[]]]]]]]; injection H as <- <-; (split; [reflexivity|split; [lia|]]); intros pr; cbn;
        (split; [intros H; repeat (destruct H as [H|H]; [try discriminate; congruence|]); destruct H|intros ->; auto 10]). }
    assert (X : exists p, In (s, p) calico_protocols).
    { cbn in Es. repeat (destruct Es as [<-|Es]; [eexists; cbn; eauto 10|]). destruct Es. }
    destruct X as [p Hp]. destruct (G s p Hp) as (G1 & G2 & G3). rewrite G1 in E. injection E as <-. exists p. split; auto. split; auto. split; [discriminate|].
    intros pr. unfold means_proto. split; [intros [H|(s' & H & H')]; [discriminate|injection H as <-; apply G3; auto]|].
    intros ->. right. exists s. auto.
Qed.

(** ** ICMP elements *)
Definition el_means (e : Z * option Z) (ty co : Z) : Prop := ty = fst e /\ (snd e = None \/ snd e = Some co).
Lemma icmp_element_spec : forall y t c, icmp_element y = Some (t, c) ->
  (0 <= t <= 254)%Z /\ opt (fun n => 0 <= n <= 255)%Z c /\ (forall ty co, icmp_matches y ty co <-> el_means (t, c) ty co) /\
  exists m, y = YMap m /\ yint (yget m "type") = Some t /\ (c = None <-> yget m "code" = YNull) /\ yint (yget m "code") = c.
Proof.
  intros y t c E. unfold icmp_element in E. destruct (check_fields y _) as [m|] eqn:Ec; [|discriminate]. cbn [bind] in E.
  apply check_fields_map in Ec as [-> _]. destruct (yint (yget m "type")) as [t'|] eqn:Et; [|discriminate].
  destruct (negb _) eqn:Er; [discriminate|]. apply negb_false_iff in Er.
  assert (X : t' = t /\ opt (fun n => 0 <= n <= 255)%Z c /\ (c = None <-> yget m "code" = YNull) /\ yint (yget m "code") = c).
  { destruct (null_dec (yget m "code")) as [N|N].
    - rewrite N in *. injection E as <- <-. cbn. tauto.
    - assert (E' : match yint (yget m "code") with Some n => if (0 <=? n)%Z && (n <=? 255)%Z then Some (t', Some n) else None | None => None end = Some (t, c))
        by (destruct (yget m "code"); try exact E; congruence). clear E.
      destruct (yint (yget m "code")) as [n|]; [|discriminate]. destruct ((0 <=? n)%Z && (n <=? 255)%Z) eqn:En; [|discriminate]. injection E' as <- <-.
      cbn. repeat split; try lia; try congruence. }
  destruct X as (<- & X1 & X2 & X3). split; [lia|]. split; auto. split.
  - intros ty co. unfold icmp_matches, el_means. cbn [fst snd]. split.
    + intros (m' & E1 & E2 & E3). injection E1 as <-. split; [congruence|]. destruct E3 as [E3|E3]; [left; apply X2; auto|right; congruence].
    + intros [-> [H|H]]; exists m; (split; [auto|]); (split; [auto|]); [left; apply X2; auto|right; congruence].
  - exists m. auto.
Qed.
Lemma opt_element_spec : forall y o, opt_element y = Some o ->
  (o = None /\ y = YNull) \/ (exists e, o = Some e /\ y <> YNull /\ icmp_element y = Some e).
Proof.
  intros y o E. destruct (null_dec y) as [->|N]; [injection E as <-; auto|]. right. unfold opt_element in E.
  assert (E' : option_map Some (icmp_element y) = Some o) by (destruct y; try exact E; congruence).
  destruct (icmp_element y) as [e|]; [|discriminate]. injection E' as <-. exists e. auto.
Qed.

Section Rules.
Context (reg : list peer) (R : reg_ok reg).
Context (cl : cluster) (Hc : cluster_ok cl) (Hk : kinds_ok cl) (HC : container reg (cl_peers cl)).
Context (Hp : forall p nm n pr, assoc_s nm (cl_ports cl p) = Some (n, pr) -> (1 <= n <= 65535)%Z).
Context (net : yaml -> option cidr) (Hnet : forall y c, net y = Some c -> cidr_ok c).
Let K := std_alg reg R.
Let A := cube_ops std_dom std_all reg.
Let W := cube_laws std_dom std_rest reg reg std_peers [Ivl 0 255] K.
Notation space := (a_space std_dom).
Notation from := (a_src reg).
Notation to := (a_dst reg).
Notation ok := (a_ok std_dom std_rest).
Notation mk := (conns_of std_dom reg (cl_ports cl)).

(** A source or destination entry. *)
Lemma entity_spec : forall ns sup src y ps q, entity cl net ns sup y = Some (ps, q) -> benign_entity src y ->
  pok reg ps /\ in_range 1 65535 (port_set q) /\ (src = true -> named_ports q = [] /\ excluded_named_ports q = []) /\
  (excluded_named_ports q <> [] -> exists m, y = YMap m /\ named_in (yget m "notPorts")) /\
  (sup = false -> forall x pr n, pt_in x ps <-> entity_matches cl net ns y x pr n) /\
  forall x pr n, (1 <= n <= 65535)%Z ->
    (pt_in x ps /\ held (cl_ports cl) x pr (port_set q) (named_ports q) n /\
      ~ (exists nm, In nm (excluded_named_ports q) /\ named_at (cl_ports cl) x nm n pr) <-> entity_matches cl net ns y x pr n).
Proof using Hc Hk HC Hnet.
  intros ns sup src y ps q E B. unfold entity in E. destruct (ytrue y) eqn:Y.
  - destruct (check_fields y entity_fields) as [m|] eqn:Ec; [|discriminate]. cbn [bind] in E. apply check_fields_map in Ec as [-> _].
    destruct (rule_peers cl net ns m) as [ps'|] eqn:E1; [|discriminate]. cbn [bind] in E. destruct (rule_ports m sup) as [q'|] eqn:E2; [|discriminate].
    cbn [bind] in E. injection E as -> ->. assert (Ne : m <> []) by (intros ->; discriminate). destruct (B m eq_refl Ne) as (B1 & B2 & B3).
    destruct (rule_peers_spec cl Hc Hk net Hnet reg HC ns m ps E1 B1) as [O1 M1]. destruct (rule_ports_spec m sup q E2 B2) as (R2 & S2 & N2 & X2 & M2).
    assert (EM : forall x pr n, entity_matches cl net ns (YMap m) x pr n <-> peers_match cl net ns m x /\ ports_match (cl_ports cl) m x pr n).
    { intros x pr n. destruct m as [|kv t]; [congruence|]. cbn [entity_matches]. tauto. }
    split; auto. split; auto. split; [|split; [|split]].
    + intros Hs. destruct (B3 Hs) as [H1 H2]. split.
      * destruct (named_ports q); auto. destruct H1. apply N2. discriminate.
      * destruct (excluded_named_ports q); auto. destruct H2. apply X2. discriminate.
    + intros H. exists m. auto.
    + intros Hs x pr n. rewrite M1, EM. destruct (S2 Hs) as [S3 S4]. unfold ports_match. rewrite S3, S4. split; [|tauto].
      intros H. split; auto.
    + intros x pr n Hn. rewrite EM, <- M1, <- (M2 (cl_ports cl) x pr n Hn). tauto.
  - injection E as <- <-. destruct (peers_group_spec reg (cl_peers cl) true true HC) as [O1 M1].
    assert (EM : forall x pr n, entity_matches cl net ns y x pr n <-> member (cl_peers cl) x \/ is_addr x).
    { intros x pr n. destruct y as [| | | | | |[|kv t]]; cbn [entity_matches]; try tauto. discriminate. }
    assert (M2 : forall x, pt_in x (peers_group (cl_peers cl) true true) <-> member (cl_peers cl) x \/ is_addr x) by (intros x; rewrite M1; tauto).
    split; auto. unfold ps_new, all_ports_interval. cbn [port_set named_ports excluded_named_ports]. split; [split; [cbn; lia|intros z Hz; apply one_mem in Hz; lia]|].
    split; auto. split; [congruence|]. split.
    + intros _ x pr n. rewrite EM. apply M2.
    + intros x pr n Hn. rewrite EM, M2. split; [tauto|]. intros H. split; auto. split; [left; apply one_mem; lia|]. intros (nm & [] & _).
Qed.

(** The connections of a dictionary. *)
Lemma mk_spec : forall src dst pr sp dp ty co, pok reg src -> pok reg dst -> opt (in_range 0 255) pr -> opt (in_range 1 65535) sp ->
  opt (fun q => in_range 1 65535 (port_set q)) dp -> opt (fun z => 0 <= z <= 254)%Z ty -> opt (fun z => 0 <= z <= 255)%Z co ->
  let k := CDict (Some src) (Some dst) pr sp dp None None None ty co in
  ok (mk k) /\ (opt (fun q => excluded_named_ports q = []) dp -> regular_conns (mk k)) /\
  forall p, space p -> (p @ mk k <-> pt_in (from p) src /\ pt_in (to p) dst /\ opt (mem (p 2)) pr /\ opt (mem (p 3)) sp /\ opt (eq (p 8)) ty /\ opt (eq (p 9)) co /\
    opt (fun q => (mem (p 4) (port_set q) \/ exists nm z, In nm (named_ports q) /\ opt (mem z) pr /\ (0 <= z <= 255)%Z /\ named_at (cl_ports cl) (to p) nm (p 4) z) /\
       ~ exists nm z, In nm (excluded_named_ports q) /\ opt (mem z) pr /\ (0 <= z <= 255)%Z /\ named_at (cl_ports cl) (to p) nm (p 4) z) dp).
Proof using R Hp.
  intros src dst pr sp dp ty co Hs Hd Hpr Hsp Hdp Hty Hco k.
  assert (DK : dict_ok std_dom reg (strip_excl k)).
  { constructor; cbn; auto. destruct dp as [q|]; cbn; auto. split; [exact Hdp|]. split; auto. intros _. discriminate. }
  destruct (std_conns_of_excl_spec reg R (cl_ports cl) Hp k DK) as [O M]; [intros _; discriminate|]. split; [exact O|]. split.
  - intros Hx. refine (std_conns_of_regular reg R (cl_ports cl) Hp k _). destruct DK. constructor; auto. cbn in *. destruct dp as [q|]; cbn in *; auto.
    split; [exact Hdp|]. split; auto. intros _. discriminate.
  - intros p Sp. rewrite (M p Sp). unfold dict_rest. cbn [k k_src k_dst k_proto k_sports k_dports k_methods k_hosts k_paths k_type k_code opt].
    assert (D2 : forall z, val_mem z (dict_cube std_dom reg k 2) <-> opt (mem z) pr /\ (0 <= z <= 255)%Z).
    { intros z. cbn [dict_cube k k_proto or_dom]. destruct pr as [s|]; cbn [opt] in *.
      - cbn [val_mem]. split; [intros H; split; auto; apply Hpr; auto|tauto].
      - split; [intros H; apply one_mem in H; split; auto; lia|intros [_ H]; apply one_mem; lia]. }
    destruct dp as [q|]; cbn [opt]; [|tauto].
    assert (D3 : forall names, (exists name z, In name names /\ val_mem z (dict_cube std_dom reg k 2) /\ named_at (cl_ports cl) (to p) name (p 4) z) <->
      (exists nm z, In nm names /\ opt (mem z) pr /\ (0 <= z <= 255)%Z /\ named_at (cl_ports cl) (to p) nm (p 4) z)).
    { intros names. split; intros (nm & z & H1 & H2); exists nm, z; (split; [auto|]); rewrite D2 in *; tauto. }
    unfold dport_in, excluded_at. rewrite !D3. tauto.
Qed.
Lemma single_ok : forall pr, (0 <= pr <= 255)%Z -> in_range 0 255 (single pr).
Proof. intros pr H. split; [cbn; lia|]. intros z Hz. apply one_mem in Hz. lia. Qed.

(** ICMP elements without zeros. *)
Definition no_zeros (e : Z * option Z) : Prop := fst e <> 0%Z /\ snd e <> Some 0%Z.
Definition el_ok (e : Z * option Z) : Prop := (0 <= fst e <= 254)%Z /\ opt (fun n => 0 <= n <= 255)%Z (snd e).
Lemma icmp_cube_spec : forall src dst pr e, pok reg src -> pok reg dst -> (0 <= pr <= 255)%Z -> opt no_zeros e -> opt el_ok e ->
  let x := icmp_cube mk src dst pr e in
  ok x /\ regular_conns x /\ forall p, space p ->
    (p @ x <-> pt_in (from p) src /\ pt_in (to p) dst /\ p 2 = pr /\ opt (fun e => el_means e (p 8) (p 9)) e).
Proof using R Hp.
  intros src dst pr e Hs Hd Hpr Hz He x.
  assert (X : exists ty co, opt (fun z => 0 <= z <= 254)%Z ty /\ opt (fun z => 0 <= z <= 255)%Z co /\
    icmp_cube mk src dst pr e = mk (CDict (Some src) (Some dst) (Some (single pr)) None None None None None ty co) /\
    forall a b : Z, (opt (eq a) ty /\ opt (eq b) co) <-> opt (fun e => el_means e a b) e).
  { destruct e as [[t c]|]; cbn [opt] in *.
    - destruct Hz as [Z1 Z2], He as [E1 E2]. cbn [fst snd] in *. exists (Some t), c. unfold icmp_cube. cbn [nonzero].
      replace (t =? 0)%Z with false by lia. assert (Ec : nonzero c = c). { destruct c as [n|]; auto. cbn. destruct (Z.eqb_spec n 0); auto. congruence. }
      rewrite Ec. split; auto. split; auto. split; auto. intros a b. unfold el_means. cbn [fst snd opt]. destruct c as [n|]; cbn [opt].
      + split; [intros [-> ->]; auto|]. intros [-> [H|H]]; [discriminate|injection H as ->; auto].
      + split; [intros [-> _]; auto|intros [-> _]; auto].
    - exists None, None. cbn. tauto. }
  destruct X as (ty & co & X1 & X2 & X3 & X4). unfold x. rewrite X3.
  destruct (mk_spec src dst (Some (single pr)) None None ty co Hs Hd (single_ok pr Hpr) I I X1 X2) as (O & Rg & M). split; auto. split; [apply Rg; exact I|].
  intros p Sp. rewrite (M p Sp). cbn [opt]. unfold single. rewrite one_mem, <- X4. split.
  - intros (H1 & H2 & H3 & _ & H4 & H5 & _). repeat split; auto. lia.
  - intros (H1 & H2 & H3 & H4 & H5). repeat split; auto; lia.
Qed.
Lemma sub_spec : forall x y, ok x -> ok y -> regular_conns x ->
  ((exists p, space p /\ p @ x) -> exists p, space p /\ p @ x /\ ~ p @ y) ->
  ok (c_sub A x y) /\ regular_conns (c_sub A x y) /\ forall p, space p -> (p @ c_sub A x y <-> p @ x /\ ~ p @ y).
Proof using R.
  intros x y Ox Oy [->|Bx] Hne.
  - change (hempty Conn std_all) with (c_empty A). assert (E : c_sub A (c_empty A) y = c_empty A) by exact (l_sub_fresh _ _ _ _ _ _ _ _ _ W y Oy). rewrite E.
    split; [exact Ox|]. split; [left; reflexivity|]. intros p Sp. pose proof (l_empty _ _ _ _ _ _ _ _ _ W p) as N. tauto.
  - destruct (proj1 (l_bool _ _ _ _ _ _ _ _ _ W x Ox) Bx) as (p & Sp & Mp).
    pose proof (l_safe_nonempty _ _ _ _ _ _ _ _ _ W x y p Ox Oy Sp Mp) as Sf.
    pose proof (l_sub_ok _ _ _ _ _ _ _ _ _ W x y Ox Oy Sf) as Os. split; [exact Os|].
    assert (M : forall q, space q -> (q @ c_sub A x y <-> q @ x /\ ~ q @ y)) by (intros q Sq; exact (l_sub _ _ _ _ _ _ _ _ _ W x y q Ox Oy Sf Sq)).
    split; [right|exact M]. destruct Hne as (q & Sq & Q1 & Q2); [exists p; auto|].
    apply (l_bool _ _ _ _ _ _ _ _ _ W (c_sub A x y) Os). exists q. split; auto. apply M; auto.
Qed.
(** A point with another ICMP type or code. *)
Definition with_dim (d : nat) (v : Z) (p : dim -> Z) : dim -> Z := fun e => if Nat.eqb e d then v else p e.
Lemma with_type : forall v p, space p -> (0 <= v <= 254)%Z -> space (with_dim 8 v p).
Proof.
  intros v p Sp Hv d. unfold with_dim. destruct (Nat.eqb_spec d 8) as [->|N]; [|apply Sp]. apply one_mem. exact Hv.
Qed.
Lemma with_code : forall v p, space p -> (0 <= v <= 255)%Z -> space (with_dim 9 v p).
Proof.
  intros v p Sp Hv d. unfold with_dim. destruct (Nat.eqb_spec d 9) as [->|N]; [|apply Sp]. apply one_mem. exact Hv.
Qed.
Lemma icmp_props_spec : forall src dst pr icmp not_icmp x, pok reg src -> pok reg dst -> (0 <= pr <= 255)%Z ->
  icmp_props A mk src dst pr icmp not_icmp = Some x -> benign_icmp icmp not_icmp ->
  ok x /\ regular_conns x /\ forall p, space p ->
    (p @ x <-> pt_in (from p) src /\ pt_in (to p) dst /\ p 2 = pr /\ (icmp <> YNull -> icmp_matches icmp (p 8) (p 9)) /\
       (not_icmp <> YNull -> ~ icmp_matches not_icmp (p 8) (p 9))).
Proof using R Hp.
  intros src dst pr icmp nicmp x Hs Hd Hpr E (Z1 & Z2 & B). unfold icmp_props in E.
  destruct (opt_element icmp) as [e|] eqn:Ee; [|discriminate]. cbn [bind] in E. destruct (opt_element nicmp) as [n|] eqn:En; [|discriminate]. cbn [bind] in E.
  cbv zeta in E.
  assert (Ok : forall y o, opt_element y = Some o -> no_zero y -> opt no_zeros o /\ opt el_ok o /\
      (forall ty co, opt (fun e => el_means e ty co) o <-> (y <> YNull -> icmp_matches y ty co)) /\
      (forall ty co, opt (fun e => ~ el_means e ty co) o <-> (y <> YNull -> ~ icmp_matches y ty co))).
  { intros y o Eo Zo. destruct (opt_element_spec y o Eo) as [[-> ->]|([t c] & -> & N & Ei)]; [cbn; tauto|].
    destruct (icmp_element_spec y t c Ei) as (R1 & R2 & R3 & m & -> & M1 & M2 & M3). cbn [opt]. destruct (Zo m eq_refl) as [Q1 Q2].
    split; [split; cbn; congruence|]. split; [split; auto|]. split; intros ty co; rewrite <- R3; tauto. }
  destruct (Ok icmp e Ee Z1) as (K1 & K2 & K3 & _). destruct (Ok nicmp n En Z2) as (N1 & N2 & _ & N3).
  destruct (icmp_cube_spec src dst pr e Hs Hd Hpr K1 K2) as (O1 & R1 & M1). destruct (icmp_cube_spec src dst pr n Hs Hd Hpr N1 N2) as (O2 & R2 & M2).
  set (yes := icmp_cube mk src dst pr e) in *. set (no := icmp_cube mk src dst pr n) in *.
  (* the result is yes, where no element excludes anything of it, or yes - no *)
  assert (Yes : (forall p, opt (fun e => el_means e (p 8) (p 9)) e -> opt (fun e => ~ el_means e (p 8) (p 9)) n) ->
     ok yes /\ regular_conns yes /\ forall p, space p ->
    (p @ yes <-> pt_in (from p) src /\ pt_in (to p) dst /\ p 2 = pr /\ (icmp <> YNull -> icmp_matches icmp (p 8) (p 9)) /\
       (nicmp <> YNull -> ~ icmp_matches nicmp (p 8) (p 9)))).
  { intros H. split; auto. split; auto. intros p Sp. rewrite (M1 p Sp), <- K3, <- N3. specialize (H p). tauto. }
  assert (Sub : n <> None -> ((exists p, space p /\ p @ yes) -> exists p, space p /\ p @ yes /\ ~ p @ no) ->
     ok (c_sub A yes no) /\ regular_conns (c_sub A yes no) /\ forall p, space p ->
    (p @ c_sub A yes no <-> pt_in (from p) src /\ pt_in (to p) dst /\ p 2 = pr /\ (icmp <> YNull -> icmp_matches icmp (p 8) (p 9)) /\
       (nicmp <> YNull -> ~ icmp_matches nicmp (p 8) (p 9)))).
  { intros Hn Hne. destruct (sub_spec yes no O1 O2 R1 Hne) as (S1 & S2 & S3). split; auto. split; auto. intros p Sp. rewrite (S3 p Sp), (M1 p Sp), (M2 p Sp), <- K3, <- N3.
    destruct n as [n|]; [|congruence]. cbn [opt]. tauto. }
  destruct e as [[t c]|], n as [[nt nc]|]; cbn [opt] in *; try (injection E as <-; apply Yes; intros p H; exact I).
  - destruct (opt_element_spec _ _ Ee) as [[H _]|(e' & H & _ & Ei)]; [discriminate|]. injection H as <-.
    destruct (opt_element_spec _ _ En) as [[H _]|(n' & H & _ & Ni)]; [discriminate|]. injection H as <-.
    destruct (icmp_element_spec _ _ _ Ei) as (_ & _ & _ & mi & Yi & Ti & Ci & Di). destruct (icmp_element_spec _ _ _ Ni) as (_ & _ & _ & mn & Yn & Tn & Cn & Dn).
    specialize (B mi mn Yi Yn). rewrite Ti, Tn, Di, Dn in B.
    destruct (Z.eqb_spec t nt) as [->|Nt]; cbn [andb] in E.
    + destruct (B eq_refl) as [B1 B2]. assert (Z : zeqb_opt c nc = false).
      { destruct c as [c|], nc as [nc|]; cbn; auto; try congruence. destruct (Z.eqb_spec c nc); congruence. }
      rewrite Z in E. destruct c as [c|].
      * injection E as <-. apply Yes. intros p [H1 H2] [H3 H4]. cbn [fst snd] in *. destruct H2 as [H2|H2]; [discriminate|]. destruct H4 as [H4|H4]; [tauto|congruence].
      * injection E as <-. apply Sub; [discriminate|]. intros (p & Sp & Mp). destruct nc as [nc|]; [|congruence].
        destruct N2 as [_ N2]. cbn in N2. set (v := if (nc =? 1)%Z then 2%Z else 1%Z).
        assert (Sp' : space (with_dim 9 v p)) by (apply with_code; auto; unfold v; destruct (nc =? 1)%Z; lia).
        exists (with_dim 9 v p). split; auto. apply (M1 p Sp) in Mp as (P1 & P2 & P3 & P4 & P5). split.
        -- apply (M1 _ Sp'). split; [exact P1|]. split; [exact P2|]. split; [exact P3|]. split; [exact P4|left; reflexivity].
        -- intros H. apply (M2 _ Sp') in H as (_ & _ & _ & _ & [H|H]); [discriminate|]. cbn in H. unfold v in H. destruct (Z.eqb_spec nc 1); injection H as H; lia.
    + injection E as <-. apply Yes. intros p [H1 _] [H3 _]. cbn [fst] in *. congruence.
  - injection E as <-. apply Sub; [discriminate|]. intros (p & Sp & Mp). set (v := if (nt =? 1)%Z then 2%Z else 1%Z).
    assert (Sp' : space (with_dim 8 v p)) by (apply with_type; auto; unfold v; destruct (nt =? 1)%Z; lia).
    exists (with_dim 8 v p). split; auto. apply (M1 p Sp) in Mp as (P1 & P2 & P3 & _). split.
    + apply (M1 _ Sp'). split; [exact P1|]. split; [exact P2|]. split; [exact P3|exact I].
    + intros H. apply (M2 _ Sp') in H as (_ & _ & _ & H & _). cbn in H. unfold v in H. destruct (Z.eqb_spec nt 1); lia.
Qed.
Lemma null_proto : forall pr, ~ means_proto YNull pr.
Proof. intros pr [H|(s & H & _)]; discriminate. Qed.
Lemma action_spec : forall y a, calico_action y = Some a -> y = YStr (action_name a).
Proof.
  intros y a E. destruct y as [| | | |s| |]; try discriminate. cbn [calico_action] in E.
  destruct (String.eqb_spec s "Deny") as [->|_]; [injection E as <-; auto|]. destruct (String.eqb_spec s "Allow") as [->|_]; [injection E as <-; auto|].
  destruct (String.eqb_spec s "Log") as [->|_]; [injection E as <-; auto|]. destruct (String.eqb_spec s "Pass") as [->|_]; [injection E as <-; auto|discriminate].
Qed.
Definition excludes_names (m : list (string * yaml)) : Prop := exists d, yget m "destination" = YMap d /\ named_in (yget d "notPorts").

Lemma no_null : forall P : Prop, (YNull <> YNull -> P) <-> True.
Proof. intros P. split; auto. intros _ H. congruence. Qed.
Lemma yes_null : forall (y : yaml) (P : Prop), y <> YNull -> ((y <> YNull -> P) <-> P).
Proof. intros y P H. tauto. Qed.
Theorem crule_spec : forall ns ing sel m r, pok reg sel -> calico_rule cl net A mk ns ing sel (YMap m) = Some r -> benign_crule m ->
  yget m "action" = YStr (action_name (r_action r)) /\ ok (r_props r) /\
  (~ excludes_names m \/ (exists pt, space pt /\ pt @ r_props r) -> regular_conns (r_props r)) /\
  forall pt, space pt -> (pt @ r_props r <->
    pt_in (if ing then to pt else from pt) sel /\ crule_matches cl net ns m (from pt) (to pt) (pt 2) (pt 3) (pt 4) (pt 8) (pt 9)).
Proof using R Hc Hk HC Hp Hnet.
  intros ns ing sel m r Psel E (Bs & Bd & Bp & Bi & Bic). unfold calico_rule in E.
  destruct (check_fields (YMap m) rule_fields) as [m'|] eqn:Ec; [|discriminate]. cbn [bind] in E. apply check_fields_map in Ec as [Em _]. injection Em as <-.
  destruct (calico_action (yget m "action")) as [act|] eqn:Ea; [|discriminate]. cbn [bind] in E. apply action_spec in Ea.
  destruct (calico_protocol (yget m "protocol")) as [po|] eqn:Ep; [|discriminate]. cbn [bind] in E. apply protocol_spec in Ep.
  match type of E with bind ?e _ = _ => destruct e as [sup|] eqn:Es; [|discriminate] end. cbn [bind] in E.
  destruct (calico_protocol (yget m "notProtocol")) as [no|] eqn:En; [|discriminate]. cbn [bind] in E. apply protocol_spec in En.
  destruct (entity cl net ns sup (yget m "source")) as [[sps sq]|] eqn:E1; [|discriminate]. cbn [bind] in E.
  destruct (entity cl net ns sup (yget m "destination")) as [[dps dq]|] eqn:E2; [|discriminate]. cbn [bind fst snd] in E.
  destruct (entity_spec ns sup true _ _ _ E1 Bs) as (Os & Rs & Ns & _ & Us & Ms).
  destruct (entity_spec ns sup false _ _ _ E2 Bd) as (Od & Rd & _ & Xd & Ud & Md).
  match type of E with bind ?e _ = _ => destruct e as [dst|] eqn:E3; [|discriminate] end. cbn [bind] in E.
  match type of E with bind ?e _ = _ => destruct e as [src|] eqn:E4; [|discriminate] end. cbn [bind] in E.
  assert (SD : pok reg src /\ pok reg dst /\ forall pt, (pt_in (from pt) src /\ pt_in (to pt) dst) <->
     (pt_in (if ing then to pt else from pt) sel /\ pt_in (from pt) sps /\ pt_in (to pt) dps)).
  { destruct ing.
    - injection E4 as <-. destruct (ps_inter_ok dps sel (proj1 Od) (proj1 Psel)) as (u & Eu & Ou & Mu). rewrite Eu in E3. injection E3 as <-.
      split; auto. split; [split; auto; intros k n H; apply (Mu (PN k n)) in H as [H _]; apply Od; exact H|]. intros pt. rewrite Mu. tauto.
    - injection E3 as <-. destruct (ps_inter_ok sps sel (proj1 Os) (proj1 Psel)) as (u & Eu & Ou & Mu). rewrite Eu in E4. injection E4 as <-.
      split; [split; auto; intros k n H; apply (Mu (PN k n)) in H as [H _]; apply Os; exact H|]. split; auto. intros pt. rewrite Mu. tauto. }
  destruct SD as (Osrc & Odst & SD).
  match type of E with bind ?e _ = _ => destruct e as [props|] eqn:E5; [|discriminate] end. cbn [bind] in E. injection E as <-. cbn [r_action r_props].
  split; auto. clear E1 E2 E3 E4 Bs Bd.
  assert (Sp34 : forall pt, space pt -> (1 <= pt 3%nat <= 65535)%Z /\ (1 <= pt 4%nat <= 65535)%Z /\ (0 <= pt 2%nat <= 255)%Z).
  { intros pt Sp. pose proof (Sp 3) as H3. pose proof (Sp 4) as H4. pose proof (Sp 2) as H2. apply one_mem in H3. apply one_mem in H4. apply one_mem in H2. auto. }
  (* no ICMP element unless the protocol is ICMP *)
  assert (NoI : (forall pr, means_proto (yget m "protocol") pr -> pr <> 1%Z /\ pr <> 58%Z) -> yget m "icmp" = YNull /\ yget m "notICMP" = YNull).
  { intros H. destruct (null_dec (yget m "icmp")) as [X|X]; [|destruct (Bi (or_introl X)) as [Y|Y]; apply H in Y; lia].
    destruct (null_dec (yget m "notICMP")) as [X'|X']; [auto|destruct (Bi (or_intror X')) as [Y|Y]; apply H in Y; lia]. }
  assert (Fin : forall x, ok x -> regular_conns x -> (forall pt, space pt -> (pt @ x <-> pt_in (if ing then to pt else from pt) sel /\
      crule_matches cl net ns m (from pt) (to pt) (pt 2) (pt 3) (pt 4) (pt 8) (pt 9))) ->
    ok x /\ (~ excludes_names m \/ (exists pt, space pt /\ pt @ x) -> regular_conns x) /\ forall pt, space pt -> (pt @ x <-> pt_in (if ing then to pt else from pt) sel /\
      crule_matches cl net ns m (from pt) (to pt) (pt 2) (pt 3) (pt 4) (pt 8) (pt 9))) by auto.
  destruct Ep as [[-> Yp]|(p & -> & Rp & Yp & Mp)].
  - (* no protocol *)
    injection Es as <-. rewrite Yp in *. destruct NoI as [I1 I2]; [intros pr H; destruct (null_proto pr H)|].
    destruct En as [[-> Yn]|(n & -> & Rn & Yn & Mn)].
    + injection E5 as <-. destruct (mk_spec src dst None None None None None Osrc Odst I I I I I) as (O & Rg & M).
      apply Fin; [exact O|apply Rg; exact I|]. intros pt Sp. rewrite (M pt Sp). cbn [opt]. unfold crule_matches. rewrite Yp, Yn, I1, I2, <- Us, <- Ud by auto.
      specialize (SD pt). rewrite ?no_null. rewrite ?(yes_null _ _ Yp), ?(yes_null _ _ Yn). clear - SD. tauto.
    + destruct (pbool src && pbool dst) eqn:Eb.
      * destruct (pr_remove (pr_new true) (ProtoNum n)) as [ps|] eqn:Er; [|discriminate]. cbn [bind] in E5. injection E5 as <-.
        unfold pr_remove in Er. cbn [get_protocol_number bind] in Er. destruct (is_valid_protocol n); [|discriminate]. injection Er as <-.
        assert (C0 : canonical (pr_new true)) by (cbn; lia).
        destruct (add_hole_ok (pr_new true) (Ivl n n) C0) as (C1 & C2 & _); [cbn; lia|].
        assert (Rh : in_range 0 255 (IntervalModel.add_hole (pr_new true) (Ivl n n))).
        { split; auto. intros z Hz. apply C2 in Hz as [Hz _]. apply one_mem in Hz. exact Hz. }
        destruct (mk_spec src dst (Some (IntervalModel.add_hole (pr_new true) (Ivl n n))) None None None None Osrc Odst Rh I I I I) as (O & Rg & M).
        apply Fin; [exact O|apply Rg; exact I|]. intros pt Sp. rewrite (M pt Sp). cbn [opt]. unfold crule_matches. rewrite Yp, I1, I2, <- Us, <- Ud by auto.
        assert (X : mem (pt 2) (IntervalModel.add_hole (pr_new true) (Ivl n n)) <-> ~ means_proto (yget m "notProtocol") (pt 2)).
        { rewrite C2, Mn. cbn [lo hi]. destruct (Sp34 pt Sp) as (_ & _ & H2). split; [intros [_ H]; lia|intros H; split; [apply one_mem; lia|lia]]. }
        rewrite X. specialize (SD pt). rewrite ?no_null. rewrite ?(yes_null _ _ Yp), ?(yes_null _ _ Yn). clear - SD. tauto.
      * injection E5 as <-. apply Fin; [exact (l_empty_ok _ _ _ _ _ _ _ _ _ W)|left; reflexivity|]. intros pt Sp.
        pose proof (l_empty _ _ _ _ _ _ _ _ _ W pt) as NE. split; [intros H; destruct (NE H)|]. intros [H1 H2]. exfalso. unfold crule_matches in H2.
        rewrite <- Us, <- Ud in H2 by auto. destruct (proj2 (SD pt)) as [H3 H4]; [tauto|].
        apply andb_false_iff in Eb as [Eb|Eb]; [exact (pbool_false _ _ Eb H3)|exact (pbool_false _ _ Eb H4)].
  - cbn [protocol_supports_ports get_protocol_number bind] in Es. injection Es as Es. destruct En as [[-> Yn]|(n & -> & Rn & Yn & Mn)].
    + destruct sup.
      * (* ports *)
        injection E5 as <-. destruct NoI as [I1 I2]; [intros pr H; apply Mp in H; lia|].
        destruct (mk_spec src dst (Some (single p)) (Some (port_set sq)) (Some dq) None None Osrc Odst (single_ok p Rp) Rs Rd I I) as (O & Rg & M).
        destruct (Ns eq_refl) as [Ns1 Ns2].
        assert (MM : forall pt, space pt -> (pt @ mk (CDict (Some src) (Some dst) (Some (single p)) (Some (port_set sq)) (Some dq) None None None None None) <->
           pt_in (if ing then to pt else from pt) sel /\ crule_matches cl net ns m (from pt) (to pt) (pt 2) (pt 3) (pt 4) (pt 8) (pt 9))).
        { intros pt Sp. destruct (Sp34 pt Sp) as (S3 & S4 & S2). rewrite (M pt Sp). cbn [opt]. unfold crule_matches. rewrite Yn, I1, I2.
          rewrite <- (Ms (from pt) (pt 2) (pt 3) S3), <- (Md (to pt) (pt 2) (pt 4) S4), Ns1, Ns2, Mp.
          assert (X1 : mem (pt 2) (single p) <-> pt 2 = p) by (unfold single; rewrite one_mem; lia).
          assert (X2 : held (cl_ports cl) (from pt) (pt 2) (port_set sq) [] (pt 3) <-> mem (pt 3) (port_set sq)) by (unfold held; split; [intros [H|(nm & [] & _)]; auto|auto]).
          assert (X3 : (exists nm, In nm [] /\ named_at (cl_ports cl) (from pt) nm (pt 3) (pt 2)) <-> False) by (split; [intros (nm & [] & _)|tauto]).
          assert (X4 : pt 2 = p -> forall names, (exists nm z, In nm names /\ mem z (single p) /\ (0 <= z <= 255)%Z /\ named_at (cl_ports cl) (to pt) nm (pt 4) z) <->
             (exists nm, In nm names /\ named_at (cl_ports cl) (to pt) nm (pt 4) (pt 2))).
          { intros Hpt names. split.
            - intros (nm & z & H1 & H2 & _ & H3). apply one_mem in H2. assert (z = pt 2) by lia. subst z. eauto.
            - intros (nm & H1 & H2). exists nm, (pt 2). split; auto. split; [apply X1; auto|]. auto. }
          rewrite X1, X2, X3. specialize (SD pt). unfold held. rewrite ?no_null, (yes_null _ _ Yp).
          destruct (Z.eq_dec (pt 2) p) as [H2|H2].
          - rewrite !(X4 H2). clear - SD. tauto.
          - clear - H2. split; [tauto|]. intros (_ & _ & _ & H & _). destruct (H2 H). }
        split; [exact O|]. split; [|exact MM]. intros [H|(pt & Sp & H)].
        -- apply Rg. cbn [opt]. destruct (excluded_named_ports dq) as [|z t] eqn:Ex; auto. destruct H. apply Xd. discriminate.
        -- right. apply (l_bool _ _ _ _ _ _ _ _ _ W _ O). exists pt. auto.
      * cbn [protocol_is_icmp get_protocol_number bind] in E5. destruct ((p =? 1)%Z || (p =? 58)%Z) eqn:Ei.
        -- destruct (icmp_props_spec src dst p _ _ props Osrc Odst Rp E5 Bic) as (O & Rg & M). apply Fin; auto. intros pt Sp. rewrite (M pt Sp).
           unfold crule_matches. rewrite Yn, <- Us, <- Ud, Mp by auto. specialize (SD pt). rewrite ?no_null. rewrite ?(yes_null _ _ Yp), ?(yes_null _ _ Yn). clear - SD. tauto.
        -- injection E5 as <-. destruct NoI as [I1 I2]; [intros pr H; apply Mp in H; lia|].
           destruct (mk_spec src dst (Some (single p)) None None None None Osrc Odst (single_ok p Rp) I I I I) as (O & Rg & M).
           apply Fin; [exact O|apply Rg; exact I|]. intros pt Sp. rewrite (M pt Sp). cbn [opt].
           assert (X1 : mem (pt 2) (single p) <-> pt 2 = p) by (unfold single; rewrite one_mem; lia).
           unfold crule_matches. rewrite X1, Yn, I1, I2, <- Us, <- Ud, Mp by auto. specialize (SD pt). rewrite ?no_null. rewrite ?(yes_null _ _ Yp), ?(yes_null _ _ Yn). clear - SD. tauto.
    + injection E5 as <-. apply Fin; [exact (l_empty_ok _ _ _ _ _ _ _ _ _ W)|left; reflexivity|]. intros pt Sp.
      pose proof (l_empty _ _ _ _ _ _ _ _ _ W pt) as NE. split; [intros H; destruct (NE H)|]. intros [_ (_ & _ & H1 & H2 & _)].
      destruct (H2 Yn). apply Bp; auto.
Qed.
End Rules.
