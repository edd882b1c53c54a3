(** * C63: the connectivity map shows exactly the allowed connections of the chosen endpoints. *)
From Coq Require Import ZArith List Bool Arith Lia String Ascii.
From Verif Require Import IntervalModel IntervalFacts HyperModel HyperFacts HyperTop HyperInst PropHyperCube ConnModel ConnFacts TextModel PortProtoModel PeerModel PeerFacts PeerSetFacts
                          PolicyModel PolicyLaws PolicyFacts LayerFacts OrderFacts ConnAlg StdDims PropLayers QueryModel QueryFacts QueryAlg QuerySpecs YamlModel ClusterModel
                          FWModel FWFacts FWAlg FWLabels PropFW MapModel MapFacts CalicoSelectorSets PropQueries.
Import ListNotations.
Local Open Scope string_scope.
Local Open Scope list_scope.
Local Open Scope nat_scope.

Section Map.
Context (reg vis : list peer) (R : reg_ok reg) (HV : container reg vis) (NE : vis <> []) (h6 : policy -> bool).
Context (cl : cluster) (owner workload : peer -> string) (LP : labels_plain cl vis).
Let dom := query_dom reg vis.
Let QK := query_alg reg vis R HV NE.
Let A := cube_ops dom std_all reg.
Let Q := cube_qops dom std_all reg.
Let L := q_claws dom std_rest reg vis _ _ QK.
Let QL := q_qlaws dom std_rest reg vis _ _ QK.
Let NB : forall p, In p vis -> is_block p = false := fun p H => proj2 (HV p H).
Local Notation space := (a_space dom).
Local Notation from := (a_src reg).
Local Notation to := (a_dst reg).

(** ** The chosen endpoints *)
(** A name of the comma separated list [o]. *)
Definition names (o : option string) (t : string) : Prop := exists l, o = Some l /\ l <> "" /\ In t (split "," l).
(** The endpoint is in one of the namespaces; or it is a pod whose workload (if a namespace is given with "/") or whose owner has one of the
    names as a part; or it has labels, among them all those of one of the sets.  Addresses and DNS entries are "in the namespace None". *)
Definition chosen (s : subset) (x : point) : Prop :=
  let n := match x with PN k m => cl_ns cl (Named k m) | PA _ => None end in
  (sub_ns s = None /\ sub_dep s = None /\ sub_labels s = None) \/
  (exists t, n = Some t /\ names (sub_ns s) t) \/ (n = None /\ names (sub_ns s) "None") \/
  (exists m d, x = PN 0 m /\ owner (Named 0 m) <> "" /\ names (sub_dep s) d /\
     exists a b, (if has_char "/" d then workload (Named 0 m) else owner (Named 0 m)) = (a ++ d ++ b)%string) \/
  (exists k m l ls, x = PN k m /\ cl_labels cl (Named k m) <> [] /\ sub_labels s = Some l /\ In ls l /\
     forall key v, In (key, v) ls -> In (key, v) (cl_labels cl (Named k m))).
Lemma listed_spec : forall o t, In t (listed_in o) <-> names o t.
Proof using.
  intros [l|] t; cbn [listed_in]; unfold names.
  - destruct (String.eqb_spec l "") as [->|N]; [split; [intros []|intros (u & E & N & _); congruence]|].
    split; [intros H; exists l; auto|intros (u & E & _ & H); injection E as <-; exact H].
  - split; [intros []|intros (u & E & _); discriminate].
Qed.
Lemma label_at_spec : forall m k v, NoDup (map fst m) -> (label_at m k = Some v <-> In (k, v) m).
Proof using.
  unfold label_at. induction m as [|[a b] m IH]; intros k v N; cbn [find option_map map fst In].
  - split; [discriminate|intros []].
  - inversion N as [|? ? N1 N2]; subst. destruct (String.eqb_spec a k) as [->|Nk]; cbn [option_map snd].
    + split; [intros E; injection E as <-; auto|]. intros [E|H]; [injection E as <-; reflexivity|]. destruct N1. apply in_map_iff. exists (k, v). auto.
    + rewrite IH by auto. split; [auto|]. intros [E|H]; auto. congruence.
Qed.
Lemma chosen_spec : forall s x, (forall k m, x = PN k m -> In (Named k m) vis) -> (in_sub cl owner workload s x <-> chosen s x).
Proof using LP.
  intros s x V. unfold in_sub, chosen. cbv zeta.
  assert (Z : no_subset s = true <-> sub_ns s = None /\ sub_dep s = None /\ sub_labels s = None).
  { destruct s as [[a|] [b|] [c|]]; cbn; intuition discriminate. }
  assert (NS : forall n, existsb (String.eqb (ns_text n)) (listed_in (sub_ns s)) = true <-> (exists t, n = Some t /\ names (sub_ns s) t) \/ n = None /\ names (sub_ns s) "None").
  { intros n. rewrite existsb_exists. split.
    - intros (t & H & E). apply String.eqb_eq in E. apply listed_spec in H. destruct n as [u|]; cbn [ns_text] in E; subst t; [left; exists u; auto|right; auto].
    - intros [(t & -> & H)|[-> H]]; eexists; (split; [apply listed_spec; exact H|apply String.eqb_refl]). }
  destruct x as [k m|y]; unfold MapModel.in_subset.
  - rewrite !orb_true_iff, Z, !andb_true_iff. cbn [ns_of labels_of]. rewrite NS. clear Z NS.
    assert (D : (is_pod (Named k m) = true /\ negb (String.eqb (owner (Named k m)) "") = true) /\
                existsb (fun d => contains_str d (if has_char "/" d then workload (Named k m) else owner (Named k m))) (listed_in (sub_dep s)) = true <->
                exists m0 d, PN k m = PN 0 m0 /\ owner (Named 0 m0) <> "" /\ names (sub_dep s) d /\ exists a b, (if has_char "/" d then workload (Named 0 m0) else owner (Named 0 m0)) = (a ++ d ++ b)%string).
    { cbn [is_pod]. rewrite Nat.eqb_eq, negb_true_iff, String.eqb_neq, existsb_exists. split.
      - intros ((-> & H1) & d & H2 & H3). exists m, d. split; [reflexivity|]. split; [exact H1|]. split; [apply listed_spec; exact H2|]. apply contains_spec. exact H3.
      - intros (m0 & d & E & H1 & H2 & H3). injection E as -> <-. split; [auto|]. exists d. split; [apply listed_spec; exact H2|]. apply contains_spec. exact H3. }
    assert (B : negb (match cl_labels cl (Named k m) with [] => true | _ => false end) = true /\
                match sub_labels s with Some l => existsb (fun t => labels_included t (cl_labels cl (Named k m))) l | None => false end = true <->
                exists k0 m0 l ls, PN k m = PN k0 m0 /\ cl_labels cl (Named k0 m0) <> [] /\ sub_labels s = Some l /\ In ls l /\ forall key v, In (key, v) ls -> In (key, v) (cl_labels cl (Named k0 m0))).
    { destruct (LP (Named k m) (V k m eq_refl)) as [ND _].
      assert (I1 : forall t, labels_included t (cl_labels cl (Named k m)) = true <-> forall key v, In (key, v) t -> In (key, v) (cl_labels cl (Named k m))).
      { intros t. unfold labels_included. rewrite forallb_forall. split.
        - intros H key v Hv. specialize (H (key, v) Hv). cbn [fst snd] in H. destruct (label_at _ key) as [w|] eqn:E; [|discriminate]. apply String.eqb_eq in H. subst w. apply label_at_spec in E; auto.
        - intros H [key v] Hv. cbn [fst snd]. rewrite (proj2 (label_at_spec _ key v ND) (H key v Hv)). apply String.eqb_refl. }
      assert (Ne : negb (match cl_labels cl (Named k m) with [] => true | _ => false end) = true <-> cl_labels cl (Named k m) <> []).
      { destruct (cl_labels cl (Named k m)); cbn [negb]; (split; [intros H1 H2|intros H1]); try reflexivity; try discriminate; destruct (H1 eq_refl). }
      rewrite Ne. split.
      - intros [H1 H2]. destruct (sub_labels s) as [l|]; [|discriminate]. apply existsb_exists in H2 as (t & Ht & H2). exists k, m, l, t. split; auto. split; auto. split; auto. split; auto. apply I1. exact H2.
      - intros (k0 & m0 & l & ls & E & H1 & H2 & H3 & H4). injection E as <- <-. split; auto. rewrite H2. apply existsb_exists. exists ls. split; auto. apply I1. exact H4. }
    rewrite D, B. clear. tauto.
  - rewrite !orb_true_iff, Z. cbn [ns_of labels_of is_pod andb negb]. rewrite NS. clear Z NS. split.
    + intros [[[H|H]|H]|H]; [auto|destruct H; auto|discriminate|discriminate].
    + intros [H|[(t & E & _)|[H|[(m & d & E & _)|(k & m & l & ls & E & _)]]]]; [auto|discriminate|auto|discriminate|discriminate].
Qed.

(** ** The map *)
(** The connections the map is to show: allowed, looked at by queries (no source outside of the cluster for a destination outside; IPv6 addresses
    only if asked for or used by policies), and one end is chosen. *)
Definition to_show (flag : bool) (s : subset) (g : config) (pt : conn) : Prop :=
  connects reg vis None g pt /\ looks_at reg h6 flag g g pt /\ (chosen s (from pt) \/ chosen s (to pt)).
(** fw_rules_from_props, NetworkConfigQuery.py:882-904, for the connections that are written: the rules with the restriction in their title. *)
Definition map_rules (flag : bool) (s : subset) (allowed : list string) (single : bool) (g : config) : option (list (option bool * list (hc val * list (elem * elem)))) :=
  mapM (fun part => match fw_rules reg vis cl (snd (map_conns cl owner workload A Q h6 flag s g)) allowed single (fst part) (snd part) with Some r => Some (fst part, r) | None => None end)
       (map_parts cl owner workload A Q h6 flag s g).
(** A list of rules with the title TCP or non-TCP is about connections of this kind only. *)
Definition shown (peers : peerset) (out : list (option bool * list (hc val * list (elem * elem)))) (pt : conn) : Prop :=
  exists restr r, In (restr, r) out /\ opt (eq (a_tcp pt)) restr /\ rules_allow reg cl peers r pt.
(** C63.  The computation ends.  Every connection of a rule is to be shown or goes from a pod or host endpoint to itself; every connection to be
    shown with a non-empty host and path is one of a rule. *)
Theorem C63_map_rules : forall flag s allowed single g, good reg vis g -> answerable reg vis None g ->
  exists out, map_rules flag s allowed single g = Some out /\
    let peers := snd (map_conns cl owner workload A Q h6 flag s g) in
    (forall pt, space pt -> shown peers out pt -> to_show flag s g pt \/ exists k n, k < 2 /\ from pt = PN k n /\ to pt = PN k n) /\
    (forall pt, space pt -> pt 6 <> 0%Z -> pt 7 <> 0%Z -> to_show flag s g pt -> shown peers out pt).
Proof using R HV NE LP.
  intros flag s allowed single g G S. pose proof (good_cfg reg vis R HV NE g G) as CG. pose proof (answer_ok reg vis None g S) as CS.
  destruct (map_conns_spec cl owner workload A Q (q_src reg) (q_dst reg) a_tcp (q_space dom) a_mem (q_ok dom std_rest) (a_safe std_rest) vis q_put L QL NB h6 flag s g CG CS) as (K & Sd & P & M & E & _).
  unfold map_rules, map_parts. cbv zeta. set (x := fst (map_conns cl owner workload A Q h6 flag s g)) in *. set (peers := snd (map_conns cl owner workload A Q h6 flag s g)) in *. clearbody x peers.
  assert (T : forall pt, space pt -> (a_mem pt x <-> to_show flag s g pt)).
  { intros pt Sp. refine (iff_trans (M pt Sp) _). unfold to_show.
    assert (C1 : connects reg vis None g pt <-> QuerySpecs.allows A a_mem g pt) by (exact (connects_on reg vis R HV NE None g pt G S Sp)).
    assert (C2 : relevant (excludes6 h6 flag g) (from pt) (to pt) <-> looks_at reg h6 flag g g pt).
    { rewrite <- looks_rel. unfold excl. rewrite Bool.andb_diag. tauto. }
    pose proof (q_ends _ _ _ _ _ _ _ _ _ _ _ QL pt Sp) as [E1 E2].
    assert (V : forall y, anywhere vis y -> forall k m, y = PN k m -> In (Named k m) vis) by (intros y [H|H] k m ->; [exact H|destruct H]).
    pose proof (chosen_spec s (from pt) (V _ E1)) as D1. pose proof (chosen_spec s (to pt) (V _ E2)) as D2. unfold q_src, q_dst in *. fold A. tauto. }
  assert (Hp : forall p, In p peers -> is_block p = false -> In p vis) by (intros [k n|l] H B; [apply (proj2 P); exact H|discriminate]).
  assert (Lq : labels_plain cl (without_ip_block peers)).
  { intros p Hq. apply filter_In in Hq as [H1 H2]. apply negb_true_iff in H2. apply LP. apply Hp; auto. }
  assert (One : forall restr h, q_ok dom std_rest h -> (forall pt, space pt -> a_mem pt h -> a_mem pt x) ->
    exists r, fw_rules reg vis cl peers allowed single restr h = Some r /\
      (forall pt, space pt -> opt (eq (a_tcp pt)) restr -> rules_allow reg cl peers r pt -> a_mem pt h \/ exists k n, k < 2 /\ from pt = PN k n /\ to pt = PN k n) /\
      (forall pt, space pt -> pt 6 <> 0%Z -> pt 7 <> 0%Z -> a_mem pt h -> rules_allow reg cl peers r pt)).
  { intros restr h Kh Sub. apply (C36_rules reg vis R HV NE cl peers allowed Hp Lq single restr h Kh). intros pt Sp Mh. specialize (Sub pt Sp Mh). destruct (E pt Sp Sub) as [E1 E2]. apply M in Sub as (_ & [Po _] & _); auto.
    split; [exact Po|]. unfold q_src, q_dst in *. split; unfold listed; [destruct (a_src reg pt)|destruct (a_dst reg pt)]; auto. }
  destruct (istio_layers (lays (g_pols g))).
  - destruct (split_tcp_spec A (q_src reg) (q_dst reg) a_tcp (q_space dom) a_mem (q_ok dom std_rest) (a_safe std_rest) vis L x K Sd) as (K1 & K2 & Ms).
    set (x1 := fst (split_by_tcp A x)) in *. set (x2 := snd (split_by_tcp A x)) in *. clearbody x1 x2.
    destruct (One (Some true) x1 K1) as (r1 & E1 & A1 & B1); [intros pt Sp H; apply (Ms pt Sp) in H; tauto|].
    destruct (One (Some false) x2 K2) as (r2 & E2 & A2 & B2); [intros pt Sp H; apply (Ms pt Sp) in H; tauto|].
    cbn [mapM fst snd]. rewrite E1, E2. cbn [bind]. eexists. split; [reflexivity|]. split.
    + intros pt Sp (restr & r & [H|[H|[]]] & Ht & Hr); injection H as <- <-; [destruct (A1 pt Sp Ht Hr) as [H|H]|destruct (A2 pt Sp Ht Hr) as [H|H]]; auto; left; apply T; auto; apply (Ms pt Sp) in H; tauto.
    + intros pt Sp N6 N7 H. apply T in H; auto. destruct (a_tcp pt) eqn:Et.
      * exists (Some true), r1. split; [left; reflexivity|]. split; [exact Et|]. apply B1; auto. apply (Ms pt Sp). auto.
      * exists (Some false), r2. split; [right; left; reflexivity|]. split; [exact Et|]. apply B2; auto. apply (Ms pt Sp). auto.
  - destruct (One None x K) as (r & Er & Ar & Br); [auto|]. cbn [mapM fst snd]. rewrite Er. cbn [bind]. eexists. split; [reflexivity|]. split.
    + intros pt Sp (restr & r' & [H|[]] & Ht & Hr). injection H as <- <-. destruct (Ar pt Sp Ht Hr) as [H|H]; auto. left. apply T; auto.
    + intros pt Sp N6 N7 H. apply T in H; auto. exists None, r. split; [left; reflexivity|]. split; [exact I|]. apply Br; auto.
Qed.
End Map.
Print Assumptions C63_map_rules.
