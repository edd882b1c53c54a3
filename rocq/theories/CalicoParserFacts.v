(** * What the Calico policy parser makes of ports, peers and rules *)
From Coq Require Import ZArith List Bool Arith Lia String Ascii.
From Verif Require Import IntervalModel IntervalFacts HyperModel HyperFacts HyperOps HyperDims HyperTop HyperInst
                          PropHyperCube ConnModel ConnFacts TextModel TextFacts PortProtoModel PortProtoFacts PeerModel PeerFacts PeerSetFacts
                          PolicyModel PolicyLaws PolicyFacts LayerFacts ConnAlg StdDims PropLayers YamlModel ClusterModel K8sParserModel SelectorFacts
                          ConnDict NamedExcl PropSelectors K8sParserFacts CalicoSelectorModel CalicoSelectorFacts CalicoSelectorGram CalicoSelectorSets
                          CalicoParserModel.
Import ListNotations.
Local Open Scope string_scope.
Local Open Scope list_scope.
Local Open Scope nat_scope.
Local Opaque min_pod_index max_pod_index min_ipv6_index max_ipv6_index max_ipv4_index v4max v6min v6max.

(** ** What the elements of a Calico rule mean (Calico reference, projectcalico.org/v3) *)
(** A port entry: a number, a range "first:last", or the name of a port of the endpoint. *)
Definition range_text (a b : Z) : string := (str_of_Z a ++ ":" ++ str_of_Z b)%string.
Definition is_name (y : yaml) : Prop := exists s, y = YStr s /\ has_char ":" s = false.
Definition port_entry (named : peer -> list (string * (Z * Z))) (y : yaml) (x : point) (pr n : Z) : Prop :=
  yint y = Some n \/ (exists a b, y = YStr (range_text a b) /\ (a <= n <= b)%Z) \/
  (exists s, y = YStr s /\ has_char ":" s = false /\ named_at named x s n pr).
(** ports and notPorts, for the endpoint [x] and a connection of protocol [pr] with port [n] there. *)
Definition ports_match (named : peer -> list (string * (Z * Z))) (m : list (string * yaml)) (x : point) (pr n : Z) : Prop :=
  (ylist (yget m "ports") = [] \/ exists e, In e (ylist (yget m "ports")) /\ port_entry named e x pr n) /\
  forall e, In e (ylist (yget m "notPorts")) -> ~ port_entry named e x pr n.
(** nets, notNets, namespaceSelector, selector and notSelector.  nets and notNets are about addresses outside the cluster
    (the tool gives pods no addresses).  A selector is about the endpoints of the policy's namespace, or of all namespaces if
    the policy has none or a namespaceSelector is given. *)
Definition at_peer (q : peer) (x : point) : Prop := exists k i, q = Named k i /\ x = PN k i.
Definition in_net (net : yaml -> option cidr) (y : yaml) (x : point) : Prop :=
  exists c a, net y = Some c /\ x = PA (pos a) /\ addr_ok a /\ in_cidr a c.
Definition endpoint_sel (cl : cluster) (ns : option string) (y : yaml) (x : point) : Prop :=
  exists q s e, at_peer q x /\ y = YStr s /\ denotes s e /\ mentions_global e = false /\ in_scope cl ns q /\ sat (pod_has cl q) e.
Definition namespace_sel (cl : cluster) (y : yaml) (x : point) : Prop :=
  exists q s e, at_peer q x /\ y = YStr s /\ denotes s e /\ ns_sel cl e q.
(** A selector that is missing or empty is not given. *)
Definition given (y : yaml) : Prop := y <> YNull /\ y <> YStr "".
Definition peers_match (cl : cluster) (net : yaml -> option cidr) (ns : option string) (m : list (string * yaml)) (x : point) : Prop :=
  let scope := if ytrue (yget m "namespaceSelector") then None else ns in
  (member (cl_peers cl) x \/ is_addr x) /\
  (ylist (yget m "nets") <> [] -> exists e, In e (ylist (yget m "nets")) /\ in_net net e x) /\
  (forall e, In e (ylist (yget m "notNets")) -> is_addr x /\ ~ in_net net e x) /\
  (given (yget m "namespaceSelector") -> namespace_sel cl (yget m "namespaceSelector") x) /\
  (yget m "selector" <> YNull -> endpoint_sel cl scope (yget m "selector") x) /\
  (given (yget m "notSelector") -> ~ endpoint_sel cl scope (yget m "notSelector") x).
(** A source or destination entry; a missing or empty one restricts nothing. *)
Definition entity_matches (cl : cluster) (net : yaml -> option cidr) (ns : option string) (y : yaml) (x : point) (pr n : Z) : Prop :=
  match y with
  | YMap (kv :: t) => peers_match cl net ns (kv :: t) x /\ ports_match (cl_ports cl) (kv :: t) x pr n
  | _ => member (cl_peers cl) x \/ is_addr x
  end.
(** protocol: a number or a name. *)
Definition calico_protocols : list (string * Z) := [("TCP", 6%Z); ("UDP", 17%Z); ("ICMP", 1%Z); ("ICMPv6", 58%Z); ("SCTP", 132%Z); ("UDPLite", 136%Z)].
Definition means_proto (y : yaml) (pr : Z) : Prop := yint y = Some pr \/ exists s, y = YStr s /\ In (s, pr) calico_protocols.
(** icmp: a type and possibly a code. *)
Definition icmp_matches (y : yaml) (ty co : Z) : Prop :=
  exists m, y = YMap m /\ yint (yget m "type") = Some ty /\ (yget m "code" = YNull \/ yint (yget m "code") = Some co).
(** A rule matches a connection from [s] to [d] with protocol [pr], ports [sp] and [dp], ICMP type and code [ty], [co]. *)
Definition crule_matches (cl : cluster) (net : yaml -> option cidr) (ns : option string) (m : list (string * yaml))
    (s d : point) (pr sp dp ty co : Z) : Prop :=
  entity_matches cl net ns (yget m "source") s pr sp /\ entity_matches cl net ns (yget m "destination") d pr dp /\
  (yget m "protocol" <> YNull -> means_proto (yget m "protocol") pr) /\
  (yget m "notProtocol" <> YNull -> ~ means_proto (yget m "notProtocol") pr) /\
  (yget m "icmp" <> YNull -> icmp_matches (yget m "icmp") ty co) /\
  (yget m "notICMP" <> YNull -> ~ icmp_matches (yget m "notICMP") ty co).

(** ** Entries outside the findings F9, F11, F12, F49-F52 *)
Definition is_list (y : yaml) : Prop := y = YNull \/ exists l, y = YList l.
Definition benign_port (y : yaml) : Prop := forall s, y = YStr s -> has_char ":" s = false \/ exists a b, s = range_text a b.
Definition named_in (y : yaml) : Prop := exists e, In e (ylist y) /\ is_name e.
Definition benign_ports (m : list (string * yaml)) : Prop :=
  is_list (yget m "ports") /\ is_list (yget m "notPorts") /\ yget m "ports" <> YList [] /\
  (forall e, In e (ylist (yget m "ports")) \/ In e (ylist (yget m "notPorts")) -> benign_port e) /\
  (* no names with excluded numbers *)
  (named_in (yget m "ports") -> forall e, In e (ylist (yget m "notPorts")) -> is_name e).
(** A selector is missing or a text of the grammar; notSelector and namespaceSelector may be the empty text. *)
Definition benign_sel (y : yaml) : Prop := y = YNull \/ exists s e, y = YStr s /\ denotes s e /\ mentions_global e = false.
Definition benign_nssel (y : yaml) : Prop := y = YNull \/ y = YStr "" \/ exists s e, y = YStr s /\ denotes s e.
Definition benign_peers (m : list (string * yaml)) : Prop :=
  is_list (yget m "nets") /\ is_list (yget m "notNets") /\
  (forall e, In e (ylist (yget m "nets")) \/ In e (ylist (yget m "notNets")) -> ytrue e = true) /\
  benign_sel (yget m "selector") /\ (yget m "notSelector" = YStr "" \/ benign_sel (yget m "notSelector")) /\ benign_nssel (yget m "namespaceSelector").
Definition benign_entity (src : bool) (y : yaml) : Prop :=
  forall m, y = YMap m -> m <> [] -> benign_peers m /\ benign_ports m /\
    (src = true -> ~ named_in (yget m "ports") /\ ~ named_in (yget m "notPorts")).

(** ** Ports *)
Lemma py_int_of_Z : forall z, py_int (str_of_Z z) = Some z.
Proof. intros z. unfold py_int. rewrite Z_of_str_of_Z. reflexivity. Qed.
Lemma no_colon : forall z, has_char ":" (str_of_Z z) = false.
Proof.
  intros z. destruct (Z.le_gt_cases 0 z) as [H|H]; [destruct (str_of_Z_digits z H) as [D _]; apply digits_nochar; auto|].
  destruct z as [|p|p]; try lia. destruct (str_of_Z_digits (Z.pos p) ltac:(lia)) as [D _].
  change (str_of_Z (Z.neg p)) with (String "-" (str_of_Z (Z.pos p))). cbn [has_char]. rewrite (digits_nochar _ ":"%char D); reflexivity.
Qed.
Lemma range_split : forall a b, split ":" (range_text a b) = [str_of_Z a; str_of_Z b].
Proof.
  intros a b. unfold range_text. change ((":" ++ str_of_Z b)%string) with (String ":" (str_of_Z b)).
  rewrite split_app_char by apply no_colon. rewrite split_nochar by apply no_colon. reflexivity.
Qed.
Lemma range_inj : forall a b c d, range_text a b = range_text c d -> a = c /\ b = d.
Proof.
  intros a b c d E. apply (f_equal (split ":")) in E. rewrite !range_split in E. injection E as E1 E2.
  split; apply str_of_Z_inj; auto.
Qed.
Lemma range_colon : forall a b, has_char ":" (range_text a b) = true.
Proof. intros a b. unfold range_text. rewrite has_char_app. cbn. apply orb_true_r. Qed.

(** What a set of ports holds at an endpoint, for one protocol. *)
Definition held (named : peer -> list (string * (Z * Z))) (x : point) (pr : Z) (s : iset) (names : list string) (n : Z) : Prop :=
  mem n s \/ exists nm, In nm names /\ named_at named x nm n pr.
Theorem cport_spec : forall y q, calico_port y = Some q -> benign_port y ->
  in_range 1 65535 (port_set q) /\ excluded_named_ports q = [] /\ (named_ports q <> [] -> is_name y) /\ (is_name y -> port_set q = []) /\
  forall named x pr n, port_entry named y x pr n <-> held named x pr (port_set q) (named_ports q) n.
Proof.
  intros y q E B.
  assert (R0 : in_range 1 65535 []) by (split; [exact I|intros z Hz; apply mem_nil in Hz; tauto]).
  assert (IR : forall a b, (1 <= a)%Z -> (a <= b)%Z -> (b <= 65535)%Z -> in_range 1 65535 [Ivl a b]).
  { intros a b H1 H2 H3. split; [cbn; lia|]. intros z Hz. apply one_mem in Hz. lia. }
  assert (H0 : forall named x pr s n, held named x pr s [] n <-> mem n s) by (intros; unfold held; split; [intros [H|(nm & [] & _)]; auto|auto]).
  assert (Num : forall a, yint y = Some a -> (if port_in_domain a then ps_add_port (ps_new false) (PNum a) else None) = Some q ->
     (forall s, y <> YStr s) -> in_range 1 65535 (port_set q) /\ excluded_named_ports q = [] /\ (named_ports q <> [] -> is_name y) /\ (is_name y -> port_set q = []) /\
     forall named x pr n, port_entry named y x pr n <-> held named x pr (port_set q) (named_ports q) n).
  { intros a Ea E' NS. destruct (port_in_domain a) eqn:Ed; [|discriminate]. unfold port_in_domain in Ed. cbn [ps_add_port ps_new port_set] in E'.
    rewrite add_one_interval in E' by lia. cbn [bind named_ports excluded_named_ports] in E'. injection E' as <-. cbn [port_set named_ports excluded_named_ports].
    split; [apply IR; lia|]. split; auto. split; [congruence|]. split; [intros (s & Es & _); destruct (NS s Es)|].
    intros named x pr n. rewrite H0, one_mem. unfold port_entry. rewrite Ea. split.
    - intros [H|[(c & d & H & _)|(s & H & _)]]; [injection H as ->; lia|destruct (NS _ H)|destruct (NS _ H)].
    - intros H. left. f_equal. lia. }
  assert (Emp : yint y = None -> Some (ps_new false) = Some q -> (forall s, y <> YStr s) ->
     in_range 1 65535 (port_set q) /\ excluded_named_ports q = [] /\ (named_ports q <> [] -> is_name y) /\ (is_name y -> port_set q = []) /\
     forall named x pr n, port_entry named y x pr n <-> held named x pr (port_set q) (named_ports q) n).
  { intros Ea E' NS. injection E' as <-. cbn [ps_new port_set named_ports excluded_named_ports]. split; auto. split; auto. split; [congruence|]. split; auto.
    intros named x pr n. rewrite H0, mem_nil. unfold port_entry. rewrite Ea. split; [|tauto].
    intros [H|[(c & d & H & _)|(s & H & _)]]; [discriminate|destruct (NS _ H)|destruct (NS _ H)]. }
  destruct y as [|b|z| |s|l|m]; cbn [calico_port yint] in E; try (apply Emp; [reflexivity|exact E|discriminate]).
  - apply (Num _ eq_refl E). discriminate.
  - apply (Num _ eq_refl E). discriminate.
  - destruct (B s eq_refl) as [Hn|(a & b & ->)].
    + rewrite (split_nochar _ _ Hn) in E. cbn [ps_add_port ps_new port_set named_ports excluded_named_ports sadd smem existsb sdiscard filter] in E. injection E as <-.
      cbn [port_set named_ports excluded_named_ports]. split; auto. split; auto. split; [intros _; exists s; auto|]. split; auto.
      intros named x pr n. unfold port_entry, held. split.
      * intros [H|[(c & d & H & _)|(t & H & _ & X)]]; [discriminate| |injection H as <-; right; exists s; split; [left; auto|auto]].
        injection H as ->. rewrite range_colon in Hn. discriminate.
      * intros [H|(nm & [<-|[]] & X)]; [apply mem_nil in H; tauto|]. right. right. exists s. auto.
    + rewrite range_split, !py_int_of_Z in E. destruct (port_in_domain a && port_in_domain b && (a <=? b)%Z) eqn:Ed; [|discriminate].
      unfold port_in_domain in Ed. unfold ps_add_range in E. cbn [ps_new port_set] in E. rewrite add_one_interval in E by lia. cbn [bind named_ports excluded_named_ports] in E. injection E as <-.
      cbn [port_set named_ports excluded_named_ports]. split; [apply IR; lia|]. split; auto. split; [congruence|].
      split; [intros (s & Es & Hs); injection Es as <-; rewrite range_colon in Hs; discriminate|].
      intros named x pr n. rewrite H0, one_mem. unfold port_entry. split.
      * intros [H|[(c & d & H & X)|(t & H & X & _)]]; [discriminate|injection H as H; apply range_inj in H as [<- <-]; auto|].
        injection H as <-. rewrite range_colon in X. discriminate.
      * intros H. right. left. exists a, b. auto.
Qed.

Lemma or_fold : forall l r0 r,
  fold_left (fun acc p => bind acc (fun r => bind (calico_port p) (fun q => ps_or r q))) l (Some r0) = Some r ->
  (forall e, In e l -> benign_port e) -> in_range 1 65535 (port_set r0) -> excluded_named_ports r0 = [] ->
  in_range 1 65535 (port_set r) /\ excluded_named_ports r = [] /\
  (named_ports r <> [] -> named_ports r0 <> [] \/ exists e, In e l /\ is_name e) /\
  forall named x pr n, held named x pr (port_set r) (named_ports r) n <->
    held named x pr (port_set r0) (named_ports r0) n \/ exists e, In e l /\ port_entry named e x pr n.
Proof.
  induction l as [|e l IH]; intros r0 r E B R0 X0; cbn [fold_left bind] in E.
  { injection E as <-. split; auto. split; auto. split; auto. intros. split; auto. intros [H|(e & [] & _)]; auto. }
  destruct (bind (calico_port e) (fun q => ps_or r0 q)) as [r1|] eqn:E1.
  2:{ exfalso. clear - E. induction l; [discriminate|]. cbn [fold_left bind] in E. auto. }
  destruct (calico_port e) as [q|] eqn:Eq; [|discriminate]. cbn [bind] in E1.
  destruct (cport_spec e q Eq (B e (or_introl eq_refl))) as (Rq & Xq & Nq & _ & Sq).
  unfold ps_or in E1. destruct (iset_or_ok (port_set q) (port_set r0) (proj1 R0) (proj1 Rq)) as (u & Eu & Cu & Mu & _). rewrite Eu in E1. cbn [bind] in E1. injection E1 as <-.
  destruct (IH _ _ E) as (A1 & A2 & A3 & A4); cbn [port_set named_ports excluded_named_ports] in *.
  - intros; apply B; right; auto.
  - split; auto. intros z Hz. apply Mu in Hz as [H|H]; [apply R0|apply Rq]; auto.
  - rewrite X0. reflexivity.
  - split; auto. split; auto. split.
    + intros H. apply A3 in H as [H|(f & F1 & F2)]; [|right; exists f; split; [right|]; auto].
      destruct (named_ports r0) eqn:E0; [right|left; congruence]. exists e. split; [left; auto|]. apply Nq. intros E2. rewrite E2 in H. apply H. reflexivity.
    + intros named x pr n. rewrite A4.
      assert (U : held named x pr u (sunion (named_ports r0) (named_ports q)) n <->
                  held named x pr (port_set r0) (named_ports r0) n \/ held named x pr (port_set q) (named_ports q) n).
      { unfold held. rewrite Mu. split.
        - intros [[H|H]|(nm & H & H')]; auto. apply sunion_In in H as [H|H]; [left; right|right; right]; exists nm; auto.
        - intros [[H|(nm & H & H')]|[H|(nm & H & H')]]; auto; right; exists nm; rewrite sunion_In; auto. }
      rewrite U, <- Sq. split.
      * intros [[H|H]|(f & F1 & F2)]; auto; right; [exists e|exists f]; split; auto; [left; auto|right; auto].
      * intros [H|(f & [<-|F1] & F2)]; auto. right. exists f. auto.
Qed.
Lemma sub_fold : forall l r0 r,
  fold_left (fun acc p => bind acc (fun r => bind (calico_port p) (fun q => Some (ps_sub r q)))) l (Some r0) = Some r ->
  (forall e, In e l -> benign_port e) -> in_range 1 65535 (port_set r0) ->
  in_range 1 65535 (port_set r) /\ (forall e, In e l -> calico_port e <> None) /\
  (forall n, mem n (port_set r) <-> mem n (port_set r0) /\ forall e q, In e l -> calico_port e = Some q -> ~ mem n (port_set q)) /\
  (forall nm, In nm (named_ports r) <-> In nm (named_ports r0) /\ forall e q, In e l -> calico_port e = Some q -> ~ In nm (named_ports q)) /\
  (forall nm, In nm (excluded_named_ports r) <-> In nm (excluded_named_ports r0) \/ exists e q, In e l /\ calico_port e = Some q /\ In nm (named_ports q)).
Proof.
  induction l as [|e l IH]; intros r0 r E B R0; cbn [fold_left bind] in E.
  { injection E as <-. split; auto. split; [intros e []|]. split; [|split]; intros n.
    - split; [intros H; split; auto; intros e q []|tauto].
    - split; [intros H; split; auto; intros e q []|tauto].
    - split; auto. intros [H|(e & q & [] & _)]; auto. }
  destruct (calico_port e) as [q|] eqn:Eq; cbn [bind] in E.
  2:{ exfalso. clear - E. induction l; [discriminate|]. cbn [fold_left bind] in E. auto. }
  destruct (cport_spec e q Eq (B e (or_introl eq_refl))) as (Rq & _).
  destruct (iset_sub_ok (port_set q) (port_set r0) (proj1 R0) (proj1 Rq)) as (Cu & Mu & _).
  destruct (IH _ _ E) as (A1 & A2 & A3 & A4 & A5); cbn [ps_sub port_set named_ports excluded_named_ports] in *.
  - intros; apply B; right; auto.
  - split; auto. intros z Hz. apply Mu in Hz as [H _]. apply R0; auto.
  - split; auto. split; [intros f [<-|F]; [congruence|auto]|]. split; [|split].
    + intros n. rewrite A3, Mu. split.
      * intros [[H1 H2] H3]. split; auto. intros f q' [<-|F] Ef; [rewrite Eq in Ef; injection Ef as <-; auto|eauto].
      * intros [H1 H2]. split; [split; auto; apply (H2 e q); [left|]; auto|]. intros f q' F Ef. apply (H2 f q'); [right|]; auto.
    + intros n. rewrite A4, sminus_In. split.
      * intros [[H1 H2] H3]. split; auto. intros f q' [<-|F] Ef; [rewrite Eq in Ef; injection Ef as <-; auto|eauto].
      * intros [H1 H2]. split; [split; auto; apply (H2 e q); [left|]; auto|]. intros f q' F Ef. apply (H2 f q'); [right|]; auto.
    + intros n. rewrite A5, sunion_In. split.
      * intros [[H|H]|(f & q' & F & Ef & H)]; auto; right; [exists e, q|exists f, q']; split; auto; [left|right]; auto.
      * intros [H|(f & q' & [<-|F] & Ef & H)]; auto; [rewrite Eq in Ef; injection Ef as <-; auto|]. right. exists f, q'. auto.
Qed.
Lemma yiter_list : forall y, is_list y -> y <> YNull -> yiter y = Some (ylist y).
Proof. intros y [->|(l & ->)] H; [congruence|reflexivity]. Qed.
Lemma null_dec : forall y : yaml, y = YNull \/ y <> YNull.
Proof. intros []; auto; right; discriminate. Qed.
Theorem rule_ports_spec : forall m sup q, rule_ports m sup = Some q -> benign_ports m ->
  in_range 1 65535 (port_set q) /\
  (sup = false -> ylist (yget m "ports") = [] /\ ylist (yget m "notPorts") = []) /\
  (named_ports q <> [] -> named_in (yget m "ports")) /\ (excluded_named_ports q <> [] -> named_in (yget m "notPorts")) /\
  forall named x pr n, (1 <= n <= 65535)%Z ->
    (held named x pr (port_set q) (named_ports q) n /\ ~ (exists nm, In nm (excluded_named_ports q) /\ named_at named x nm n pr) <->
     ports_match named m x pr n).
Proof.
  intros m sup q E (L1 & L2 & Ne & B & NB). unfold rule_ports in E.
  match type of E with bind ?e _ = _ => destruct e as [r0|] eqn:E0; [|discriminate] end. cbn [bind] in E.
  assert (P0 : in_range 1 65535 (port_set r0) /\ excluded_named_ports r0 = [] /\ (named_ports r0 <> [] -> named_in (yget m "ports")) /\
    (sup = false -> ylist (yget m "ports") = []) /\
    forall named x pr n, (1 <= n <= 65535)%Z ->
      (held named x pr (port_set r0) (named_ports r0) n <-> ylist (yget m "ports") = [] \/ exists e, In e (ylist (yget m "ports")) /\ port_entry named e x pr n)).
  { destruct (null_dec (yget m "ports")) as [N|N].
    - rewrite N in E0 |- *. injection E0 as <-. cbn [ps_new port_set named_ports excluded_named_ports ylist].
      unfold all_ports_interval. split; [split; [cbn; lia|intros z Hz; apply one_mem in Hz; lia]|]. split; auto. split; [congruence|]. split; auto.
      intros named x pr n Hn. split; auto. intros _. left. apply one_mem. lia.
    - assert (L1' := L1). destruct L1' as [?|(l & El)]; [congruence|]. rewrite El in E0. destruct sup; [|discriminate]. cbn [yiter bind] in E0.
      destruct (or_fold _ _ _ E0) as (A1 & A2 & A3 & A4); [intros; apply B; rewrite El; auto| |reflexivity|].
      { cbn. split; [exact I|]. intros z Hz. apply mem_nil in Hz. tauto. }
      rewrite El. cbn [ylist]. split; auto. split; auto. split; [intros H; apply A3 in H as [H|H]; [cbn in H; congruence|exact H]|]. split; [discriminate|].
      intros named x pr n Hn. rewrite A4. split.
      + intros [[H|(nm & [] & _)]|H]; auto. cbn in H. apply mem_nil in H. tauto.
      + intros [->|H]; auto. congruence. }
  destruct P0 as (R0 & X0 & N0 & S0 & M0). destruct (null_dec (yget m "notPorts")) as [N|N].
  - rewrite N in E. injection E as <-. split; auto. split; [rewrite N; auto|]. split; auto. split; [rewrite X0; congruence|].
    intros named x pr n Hn. rewrite (M0 named x pr n Hn). unfold ports_match. rewrite N, X0. cbn [ylist]. split.
    + intros [H _]. split; [exact H|intros e []].
    + intros [H _]. split; [exact H|intros (nm & [] & _)].
  - assert (L2' := L2). destruct L2' as [?|(l & El)]; [congruence|]. rewrite El in E. destruct sup; [|discriminate]. cbn [yiter bind] in E.
    destruct (sub_fold _ _ _ E) as (A1 & A2 & A3 & A4 & A5); [intros; apply B; rewrite El; auto|auto|]. rewrite X0 in A5. change l with (ylist (YList l)) in A2, A3, A4, A5. rewrite <- El in A2, A3, A4, A5.
    assert (CP : forall e, In e (ylist (yget m "notPorts")) -> exists qe, calico_port e = Some qe /\ (named_ports qe <> [] -> is_name e) /\ (is_name e -> port_set qe = []) /\
       forall named x pr n, port_entry named e x pr n <-> held named x pr (port_set qe) (named_ports qe) n).
    { intros e He. destruct (calico_port e) as [qe|] eqn:Ee; [|destruct (A2 e He); auto]. exists qe.
      destruct (cport_spec e qe Ee (B e (or_intror He))) as (_ & _ & U & V & W). auto. }
    split; auto. split; [discriminate|]. split; [|split].
    + intros H. apply N0. destruct (named_ports q) as [|nm t] eqn:En; [congruence|]. assert (In nm (named_ports r0)) by (apply A4; left; auto).
      intros E1. rewrite E1 in H0. destruct H0.
    + intros H. destruct (excluded_named_ports q) as [|nm t] eqn:En; [congruence|]. destruct (proj1 (A5 nm) (or_introl eq_refl)) as [[]|(e & qe & He & Ee & Hn)].
      exists e. split; auto. destruct (CP e He) as (qe' & E1 & U & _). rewrite Ee in E1. injection E1 as <-. apply U. intros E1. rewrite E1 in Hn. destruct Hn.
    + intros named x pr n Hn. unfold ports_match. rewrite <- (M0 named x pr n Hn). split.
      * intros [H1 H2]. split.
        -- destruct H1 as [H1|(nm & H1 & H3)]; [left; apply A3; auto|right; exists nm; split; auto; apply A4; auto].
        -- intros e He Hp. destruct (CP e He) as (qe & Ee & U & V & W). destruct (proj1 (W named x pr n) Hp) as [Hp1|(nm & Hp1 & Hq)]; clear Hp.
           ++ destruct H1 as [H1|(nm & H1 & H3)]; [apply A3 in H1 as [_ H1]; apply (H1 e qe); auto|].
              assert (NI : named_in (yget m "ports")). { apply N0. apply A4 in H1 as [H1 _]. intros E1. rewrite E1 in H1. destruct H1. }
              specialize (NB NI e He). rewrite (V NB) in Hp1. apply mem_nil in Hp1. tauto.
           ++ apply H2. exists nm. split; auto. apply A5. right. exists e, qe. auto.
      * intros [H1 H2]. assert (X : ~ exists nm, In nm (excluded_named_ports q) /\ named_at named x nm n pr).
        { intros (nm & H3 & H4). apply A5 in H3 as [[]|(e & qe & He & Ee & H3)]. apply (H2 e He). destruct (CP e He) as (qe' & Ee' & _ & _ & W).
          rewrite Ee in Ee'. injection Ee' as <-. apply W. right. exists nm. auto. }
        split; auto. destruct H1 as [H1|(nm & H1 & H3)].
        -- left. apply A3. split; auto. intros e qe He Ee Hm. apply (H2 e He). destruct (CP e He) as (qe' & Ee' & _ & _ & W).
           rewrite Ee in Ee'. injection Ee' as <-. apply W. left. auto.
        -- right. exists nm. split; auto. apply A4. split; auto. intros e qe He Ee Hm. apply (H2 e He). destruct (CP e He) as (qe' & Ee' & _ & _ & W).
           rewrite Ee in Ee'. injection Ee' as <-. apply W. right. exists nm. auto.
Qed.

(** ** Peers *)
Lemma denotes_ne : forall s e, denotes s e -> s <> "".
Proof.
  intros s e H ->. unfold denotes in H. cbn in H. apply gram_ne in H. apply H. reflexivity.
Qed.
Section Peers.
Context (cl : cluster) (Hc : cluster_ok cl) (Hk : kinds_ok cl) (net : yaml -> option cidr).
Context (Hnet : forall y c, net y = Some c -> cidr_ok c).
Context (reg : list peer) (HC : container reg (cl_peers cl)).

Lemma sel_spec : forall ns y, benign_sel y -> y <> YNull ->
  exists r, calico_selector cl ns false y = Some r /\ pok reg r /\ ytrue y = true /\ forall x, pt_in x r <-> endpoint_sel cl ns y x.
Proof using Hc HC.
  intros ns y [->|(s & e & -> & Hd & Hg)] N; [congruence|]. destruct (selector_pods cl Hc ns s e Hd Hg) as (r & Er & Pr & Mr).
  exists r. split; auto. split; [|split].
  - apply (plain_pok cl reg HC); auto. intros q Hq. apply Mr in Hq as [[Hq _] _]. auto.
  - pose proof (denotes_ne _ _ Hd). destruct s; [congruence|reflexivity].
  - intros x. rewrite (plain_pt _ _ Pr). split.
    + intros (q & Hq & k & i & E1 & E2). exists q, s, e. apply Mr in Hq as [H1 H2]. split; [exists k, i; auto|]. auto.
    + intros (q & s' & e' & (k & i & E1 & E2) & E3 & Hd' & Hg' & H1 & H2). injection E3 as <-. exists q. split; [|eauto].
      destruct (selector_pods cl Hc ns s e' Hd' Hg') as (r' & Er' & _ & Mr'). rewrite Er in Er'. injection Er' as <-. apply Mr'. auto.
Qed.
Lemma nssel_spec : forall y, benign_nssel y -> ytrue y = true ->
  exists r, calico_selector cl None true y = Some r /\ pok reg r /\ given y /\ forall x, pt_in x r <-> namespace_sel cl y x.
Proof using Hc Hk HC.
  intros y [->|[->|(s & e & -> & Hd)]] N; try discriminate. destruct (selector_namespaces cl Hc Hk None s e Hd) as (r & Er & Pr & Mr).
  exists r. split; auto. split; [|split].
  - apply (plain_pok cl reg HC); auto. intros q Hq. apply Mr in Hq. apply Hq.
  - split; [discriminate|]. intros E. injection E as ->. discriminate.
  - intros x. rewrite (plain_pt _ _ Pr). split.
    + intros (q & Hq & k & i & E1 & E2). exists q, s, e. apply Mr in Hq. split; [exists k, i; auto|]. auto.
    + intros (q & s' & e' & (k & i & E1 & E2) & E3 & Hd' & H1). injection E3 as <-. exists q. split; [|eauto].
      destruct (selector_namespaces cl Hc Hk None s e' Hd') as (r' & Er' & _ & Mr'). rewrite Er in Er'. injection Er' as <-. apply Mr'. auto.
Qed.

Lemma ip_block_spec : forall e b, ytrue e = true -> ip_block net e = Some b -> ipset b /\ forall a, addr_ok a -> (mem (pos a) b <-> in_net net e (PA (pos a))).
Proof using Hnet.
  intros e b Ht E. unfold ip_block in E. rewrite Ht in E. destruct (net e) as [c|] eqn:En; [|discriminate]. cbn [bind] in E.
  assert (Ip : ipset []) by (split; [exact I|intros z Hz; apply mem_nil in Hz; tauto]).
  destruct (proj1 (add_cidr_ok [] [] c Ip (Hnet _ _ En) (Forall_nil _)) (Forall_nil _)) as (r & Er & Ir & Mr). rewrite Er in E. injection E as <-.
  split; auto. intros a Ha. rewrite (Mr a Ha). split.
  - intros [[H|H] _]; [apply mem_nil in H; tauto|]. exists c, a. auto.
  - intros (c' & a' & E1 & E2 & Ha' & H). rewrite En in E1. injection E1 as <-. injection E2 as E2. apply pos_inj in E2; auto. subst a'.
    split; auto. intros X. inversion X.
Qed.
Lemma ips_or_fold : forall l r0 r, fold_left (fun acc d => bind acc (fun r => bind (ip_block net d) (fun b => ipb_or r b))) l (Some r0) = Some r ->
  (forall e, In e l -> ytrue e = true) -> ipset r0 ->
  ipset r /\ forall a, addr_ok a -> (mem (pos a) r <-> mem (pos a) r0 \/ exists e, In e l /\ in_net net e (PA (pos a))).
Proof using Hnet.
  induction l as [|e l IH]; intros r0 r E B I0; cbn [fold_left bind] in E.
  { injection E as <-. split; auto. intros a Ha. split; auto. intros [H|(e & [] & _)]; auto. }
  destruct (bind (ip_block net e) (fun b => ipb_or r0 b)) as [r1|] eqn:E1.
  2:{ exfalso. clear - E. induction l; [discriminate|]. cbn [fold_left bind] in E. auto. }
  destruct (ip_block net e) as [b|] eqn:Eb; [|discriminate]. cbn [bind] in E1.
  destruct (ip_block_spec e b (B e (or_introl eq_refl)) Eb) as [Ib Mb].
  destruct (ipb_or_ok b r0 I0 Ib) as (u & Eu & Iu & Mu). rewrite Eu in E1. injection E1 as <-.
  destruct (IH _ _ E) as [A1 A2]; [intros; apply B; right; auto|auto|]. split; auto. intros a Ha. rewrite (A2 a Ha), Mu, (Mb a Ha). split.
  - intros [[H|H]|(f & F & H)]; auto; right; [exists e|exists f]; split; auto; [left|right]; auto.
  - intros [H|(f & [<-|F] & H)]; auto. right. exists f. auto.
Qed.
Lemma ips_sub_fold : forall l r0 r, fold_left (fun acc d => bind acc (fun r => bind (ip_block net d) (fun b => Some (ipb_sub r b)))) l (Some r0) = Some r ->
  (forall e, In e l -> ytrue e = true) -> ipset r0 ->
  ipset r /\ forall a, addr_ok a -> (mem (pos a) r <-> mem (pos a) r0 /\ forall e, In e l -> ~ in_net net e (PA (pos a))).
Proof using Hnet.
  induction l as [|e l IH]; intros r0 r E B I0; cbn [fold_left bind] in E.
  { injection E as <-. split; auto. intros a Ha. split; [intros H; split; auto; intros e []|tauto]. }
  destruct (ip_block net e) as [b|] eqn:Eb; cbn [bind] in E.
  2:{ exfalso. clear - E. induction l; [discriminate|]. cbn [fold_left bind] in E. auto. }
  destruct (ip_block_spec e b (B e (or_introl eq_refl)) Eb) as [Ib Mb].
  destruct (ipb_sub_ok b r0 I0 Ib) as [Iu Mu].
  destruct (IH _ _ E) as [A1 A2]; [intros; apply B; right; auto|auto|]. split; auto. intros a Ha. rewrite (A2 a Ha), Mu, (Mb a Ha). split.
  - intros [[H1 H2] H3]. split; auto. intros f [<-|F]; auto.
  - intros [H1 H2]. split; [split; auto; apply H2; left; auto|]. intros f F. apply H2. right. auto.
Qed.

Lemma list_true : forall y, is_list y -> ytrue y = true <-> ylist y <> [].
Proof. intros y [->|(l & ->)]; cbn; [split; [discriminate|congruence]|]. destruct l; split; congruence. Qed.
Lemma yget_list_cases : forall m k l, is_list (yget m k) -> yiter (yget_list m k) = Some l -> l = ylist (yget m k) /\ ytrue (yget_list m k) = ytrue (yget m k).
Proof.
  intros m k l H E. unfold yget_list, yget in *. destruct (assoc_s k m) as [v|]; [|injection E as <-; auto].
  destruct H as [->|(l' & ->)]; [discriminate|]. injection E as <-. auto.
Qed.
Lemma opt_sel : forall ns y P, benign_sel y -> pok reg P -> forall r,
  (if is_null y then Some P else meet (Some P) (calico_selector cl ns false y)) = Some r ->
  pok reg r /\ forall x, pt_in x r <-> pt_in x P /\ (y <> YNull -> endpoint_sel cl ns y x).
Proof using Hc HC.
  intros ns y P B HP r E. destruct (null_cases y) as [[N1 N2]|[N1 N2]]; rewrite N1 in E.
  - injection E as <-. split; auto. intros x. split; [intros H; split; auto; congruence|tauto].
  - destruct (sel_spec ns y B N2) as (t & Et & Pt & _ & Mt). rewrite Et in E. cbn [meet bind] in E.
    destruct (ps_inter_ok P t (proj1 HP) (proj1 Pt)) as (u & Eu & Ou & Mu). rewrite Eu in E. injection E as <-. split.
    + split; auto. intros k n H. apply (Mu (PN k n)) in H as [H _]. apply HP. exact H.
    + intros x. rewrite Mu, Mt. split; [intros [H1 H2]; auto|intros [H1 H2]; auto].
Qed.
Lemma opt_notsel : forall ns y P, (y = YStr "" \/ benign_sel y) -> pok reg P -> forall r,
  (if ytrue y then bind (calico_selector cl ns false y) (fun s => ps_diff P s) else Some P) = Some r ->
  pok reg r /\ forall x, pt_in x r <-> pt_in x P /\ (given y -> ~ endpoint_sel cl ns y x).
Proof using Hc HC.
  intros ns y P B HP r E. destruct (ytrue y) eqn:Y.
  - destruct B as [->|B]; [discriminate|]. assert (N2 : y <> YNull) by (intros ->; discriminate).
    destruct (sel_spec ns y B N2) as (t & Et & Pt & _ & Mt). rewrite Et in E. cbn [bind] in E.
    destruct (ps_diff_ok P t (proj1 HP) (proj1 Pt)) as (u & Eu & Ou & Mu). rewrite Eu in E. injection E as <-. split.
    + split; auto. intros k n H. apply (Mu (PN k n)) in H as [H _]. apply HP. exact H.
    + intros x. rewrite Mu, Mt. split; [intros [H1 H2]; auto|intros [H1 H2]; split; auto]. apply H2. split; auto. intros ->. discriminate.
  - injection E as <-. split; auto. intros x. split; [|tauto]. intros H. split; auto. intros [G1 G2]. exfalso.
    destruct B as [->|[->|(s & e & -> & Hd & _)]]; try congruence. pose proof (denotes_ne _ _ Hd). destruct s; [congruence|discriminate].
Qed.

Theorem rule_peers_spec : forall ns m s, rule_peers cl net ns m = Some s -> benign_peers m ->
  pok reg s /\ forall x, pt_in x s <-> peers_match cl net ns m x.
Proof using Hc Hk Hnet HC.
  intros ns m s E (L1 & L2 & Bt & Bs & Bn & Bns). unfold rule_peers in E. cbv zeta in E.
  match type of E with bind ?e _ = _ => destruct e as [ips|] eqn:E1; [|discriminate] end. cbn [bind] in E.
  assert (P1 : ipset ips /\ forall a, addr_ok a -> (mem (pos a) ips <-> (ylist (yget m "nets") <> [] -> exists e, In e (ylist (yget m "nets")) /\ in_net net e (PA (pos a))))).
  { assert (Bt' : forall e, In e (ylist (yget m "nets")) -> ytrue e = true) by auto. clear - E1 L1 Bt' Hnet. destruct L1 as [N|(l & N)]; rewrite N in *.
    - cbn [ytrue ylist] in *. injection E1 as <-. split; [apply all_ips_ipset|]. intros a Ha. rewrite all_ips_mem. split; [congruence|]. intros _. apply pos_vpos; auto.
    - cbn [ytrue ylist yiter] in *. destruct l as [|c t].
      + injection E1 as <-. split; [apply all_ips_ipset|]. intros a Ha. rewrite all_ips_mem. split; [congruence|]. intros _. apply pos_vpos; auto.
      + cbn [bind] in E1. destruct (ip_block net c) as [b|] eqn:Eb.
        2:{ exfalso. clear - E1. induction t; [discriminate|]. cbn [fold_left bind] in E1. auto. }
        destruct (ip_block_spec c b (Bt' c (or_introl eq_refl)) Eb) as [Ib Mb].
        destruct (ips_or_fold _ _ _ E1) as [A1 A2]; [intros; apply Bt'; right; auto|auto|]. split; auto. intros a Ha. rewrite (A2 a Ha), (Mb a Ha). split.
        * intros [H|(e & He & H)] _; [exists c; split; [left|]; auto|exists e; split; [right|]; auto].
        * intros H. destruct H as (e & [<-|He] & H); [discriminate|auto|right; exists e; auto]. }
  destruct P1 as [I1 M1].
  match type of E with bind ?e _ = _ => destruct e as [ri|] eqn:E2; [|discriminate] end. cbn [bind] in E.
  destruct (yiter (yget_list m "notNets")) as [nl|] eqn:Enl; [|discriminate]. cbn [bind] in E2.
  destruct (yget_list_cases m _ _ L2 Enl) as [-> Ynn]. rewrite Ynn in E.
  destruct (ips_sub_fold _ _ _ E2) as [I2 M2]; [intros; apply Bt; auto|auto|].
  set (T := ytrue (yget m "nets") || ytrue (yget m "notNets")) in *.
  set (NS := ytrue (yget m "namespaceSelector")) in *. set (S := ytrue (yget m "selector")) in *.
  match type of E with bind ?e _ = _ => destruct e as [p0|] eqn:E3; [|discriminate] end. cbn [bind] in E.
  (* the first group of peers *)
  assert (P3 : pok reg p0 /\ forall x, pt_in x p0 <->
     if NS then namespace_sel cl (yget m "namespaceSelector") x
     else if S then exists q, at_peer q x /\ in_scope cl ns q
     else if T then exists a, addr_ok a /\ x = PA (pos a) /\ mem (pos a) ri
     else member (cl_peers cl) x \/ is_addr x).
  { unfold NS in *. destruct (ytrue (yget m "namespaceSelector")) eqn:ENS; [|destruct S; [|destruct T]].
    - destruct (nssel_spec _ Bns ENS) as (t & Et & Pt & _ & Mt). rewrite Et in E3. injection E3 as <-. auto.
    - injection E3 as <-. split.
      + apply (plain_pok cl reg HC); [apply ns_pods_plain; auto|]. intros q Hq. apply namespace_pods_In in Hq as [Hq _]. auto.
      + intros x. rewrite (plain_pt _ _ (ns_pods_plain cl Hc ns)). split.
        * intros (q & Hq & k & i & H1 & H2). exists q. rewrite <- namespace_pods_In. split; auto. exists k, i. auto.
        * intros (q & (k & i & H1 & H2) & Hq). exists q. rewrite namespace_pods_In. split; eauto.
    - injection E3 as <-. split.
      + split; [intros l [El|[]]; injection El as <-; auto|]. intros k n [H|[]]. discriminate.
      + intros [k n|z]; cbn [pt_in].
        * split; [intros [H|[]]; discriminate|]. intros (a & _ & H & _). discriminate.
        * split.
          -- intros (l & [El|[]] & Hz). injection El as <-. destruct (pos_surj z (proj2 I2 z Hz)) as (a & Ha & <-). exists a. auto.
          -- intros (a & Ha & Ex & Hz). injection Ex as ->. exists ri. split; [left|]; auto.
    - injection E3 as <-. destruct (peers_group_spec reg (cl_peers cl) true true HC) as [A1 A2]. split; auto. intros x. rewrite A2. tauto. }
  destruct P3 as [O3 M3].
  match type of E with bind ?e _ = _ => destruct e as [p1|] eqn:E4; [|discriminate] end. cbn [bind] in E.
  destruct (opt_sel _ _ _ Bs O3 _ E4) as [O4 M4].
  match type of E with bind ?e _ = _ => destruct e as [p2|] eqn:E5; [|discriminate] end. cbn [bind] in E.
  destruct (opt_notsel _ _ _ Bn O4 _ E5) as [O5 M5]. injection E as <-.
  assert (GS : S = true <-> yget m "selector" <> YNull).
  { unfold S. destruct Bs as [->|(s' & e & -> & Hd & _)]; [cbn; split; congruence|]. pose proof (denotes_ne _ _ Hd). destruct s'; [congruence|]. split; [discriminate|auto]. }
  assert (GN : NS = true <-> given (yget m "namespaceSelector")).
  { unfold NS. destruct Bns as [->|[->|(s' & e & -> & Hd)]].
    - cbn. split; [discriminate|intros [H _]; congruence].
    - cbn. split; [discriminate|intros [_ H]; congruence].
    - pose proof (denotes_ne _ _ Hd). destruct s'; [congruence|]. split; [intros _; split; discriminate|auto]. }
  assert (GT : T = true <-> ylist (yget m "nets") <> [] \/ ylist (yget m "notNets") <> []).
  { unfold T. rewrite orb_true_iff, !list_true by auto. tauto. }
  assert (AP : forall q x, at_peer q x -> ~ is_addr x) by (intros q x (k & i & _ & ->) F; exact F).
  assert (NA : forall e x, in_net net e x -> is_addr x).
  { intros e x (c & a & _ & -> & Ha & _). apply pos_vpos. auto. }
  assert (TA : T = true -> forall x, peers_match cl net ns m x -> is_addr x).
  { intros HT x (_ & H1 & H2 & _). apply GT in HT as [H|H].
    - destruct (H1 H) as (e & _ & He). eapply NA; eauto.
    - destruct (ylist (yget m "notNets")) as [|e t]; [congruence|]. apply (H2 e). left. auto. }
  assert (SA : NS = true \/ S = true -> forall x, peers_match cl net ns m x -> ~ is_addr x).
  { intros HS x (_ & _ & _ & H1 & H2 & _). destruct HS as [H|H].
    - destruct (H1 (proj1 GN H)) as (q & s' & e & A & _). eapply AP; eauto.
    - destruct (H2 (proj1 GS H)) as (q & s' & e & A & _). eapply AP; eauto. }
  assert (MA : forall q x, at_peer q x -> In q (cl_peers cl) -> member (cl_peers cl) x) by (intros q x (k & i & -> & ->) H; exact H).
  destruct (T && (NS || S)) eqn:EM.
  - apply andb_true_iff in EM as [HT HS]. apply orb_true_iff in HS. split; [apply pok_nil|]. intros x. split.
    + destruct x; [intros []|intros (l & [] & _)].
    + intros H. exfalso. exact (SA HS x H (TA HT x H)).
  - split; auto. intros x. rewrite M5, M4, M3. unfold peers_match. fold NS.
    assert (NT : NS = true \/ S = true -> ylist (yget m "nets") = [] /\ ylist (yget m "notNets") = []).
    { intros H. assert (T = false) by (destruct T; auto; destruct NS, S; cbn in EM; destruct H; discriminate).
      destruct (ylist (yget m "nets")) eqn:X1; [|assert (T = true) by (apply GT; left; discriminate); congruence].
      destruct (ylist (yget m "notNets")) eqn:X2; [auto|assert (T = true) by (apply GT; right; discriminate); congruence]. }
    destruct NS eqn:HN; [|destruct S eqn:HS; [|destruct T eqn:HT]].
    + destruct NT as [X1 X2]; auto. rewrite X1, X2. split.
      * intros [[H1 H2] H3]. split; [|split; [congruence|split; [intros e []|auto]]].
        left. destruct H1 as (q & s' & e & A & _ & _ & [H1 _]). eapply MA; eauto.
      * intros (_ & _ & _ & H1 & H2 & H3). split; auto. split; auto. apply H1. apply GN. reflexivity.
    + destruct NT as [X1 X2]; auto. rewrite X1, X2. split.
      * intros [[(q & A & H1) H2] H3]. split; [|split; [congruence|split; [intros e []|split; [|auto]]]].
        -- left. destruct H1 as [H1 _]. eapply MA; eauto.
        -- intros G. apply GN in G. discriminate.
      * intros (_ & _ & _ & H1 & H2 & H3). split; auto. split; auto. destruct (H2 (proj1 GS eq_refl)) as (q & s' & e & A & _ & _ & _ & H4 & _). eauto.
    + split.
      * intros [[(a & Ha & -> & Hm) H2] H3]. apply (M2 a Ha) in Hm as [Hm1 Hm2]. split; [right; apply pos_vpos; auto|]. split; [apply M1; auto|].
        split; [intros e He; split; [apply pos_vpos; auto|auto]|]. split; auto. intros G. apply GN in G. discriminate.
      * intros H. assert (HA : is_addr x) by (apply TA; [auto|unfold peers_match; fold NS; rewrite ?HN; exact H]). destruct H as (_ & H1 & H2 & H3 & H4 & H5). split; auto. split; auto.
        destruct x as [k i|z]; [destruct HA|]. destruct (pos_surj z HA) as (a & Ha & <-). exists a. split; auto. split; auto. apply M2; auto. split.
        -- apply M1; auto.
        -- intros e He. apply H2; auto.
    + assert (X1 : ylist (yget m "nets") = []) by (destruct (ylist (yget m "nets")); auto; assert (false = true) by (apply GT; left; discriminate); discriminate).
      assert (X2 : ylist (yget m "notNets") = []) by (destruct (ylist (yget m "notNets")); auto; assert (false = true) by (apply GT; right; discriminate); discriminate).
      rewrite X1, X2. split.
      * intros [[H1 H2] H3]. split; auto. split; [congruence|]. split; [intros e []|]. split; auto. intros G. apply GN in G. discriminate.
      * intros (H1 & _ & _ & _ & H4 & H5). auto.
Qed.
End Peers.
