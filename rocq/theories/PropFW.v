(** * C36: the minimized firewall rules denote the connections they summarise. *)
From Coq Require Import ZArith List Bool Arith Lia String Ascii.
From Verif Require Import IntervalModel IntervalFacts HyperModel HyperFacts HyperTop HyperInst PropHyperCube ConnModel ConnFacts TextModel PortProtoModel PeerModel PeerFacts PeerSetFacts
                          PolicyModel PolicyLaws PolicyFacts LayerFacts ConnAlg StdDims PropLayers QueryModel QueryFacts QueryAlg YamlModel ClusterModel FWModel FWFacts FWAlg FWLabels.
Import ListNotations.
Local Open Scope nat_scope.

(** ** What a side of a rule stands for *)
Section Rules.
Context (reg vis : list peer) (R : reg_ok reg) (HV : container reg vis) (NE : vis <> []).
Context (cl : cluster) (peers : peerset) (allowed : list string).
Context (Hpeers : forall p, In p peers -> is_block p = false -> In p vis) (LP : labels_plain cl (without_ip_block peers)).
(** The peers of some namespaces; the peers of a namespace with one of some values of a label (or of several labels, "a:b"; a pod without the
    label has the value #NO_LABEL_VALUE); some peers; some addresses; a DNS entry. *)
Definition describes (e : elem) (x : point) : Prop :=
  match e with
  | ENs l => exists k n, x = PN k n /\ In (Named k n) peers /\ In (cl_ns cl (Named k n)) l
  | ELabels key vs n => exists k m, x = PN k m /\ In (Named k m) peers /\ cl_ns cl (Named k m) = n /\ exists v, In v vs /\ carries cl key v (Named k m)
  | EPeers s => pt_in x s
  | EIp l => exists y, x = PA y /\ mem y l
  | EDns p => exists k n, x = PN k n /\ p = Named k n
  end.
(** The connections of a list of pairs of connections and rules. *)
Definition rules_allow (r : list (hc val * list (elem * elem))) (pt : dim -> Z) : Prop :=
  exists p l s d, In (p, l) r /\ In (s, d) l /\ a_mem pt p /\ describes s (a_src reg pt) /\ describes d (a_dst reg pt).
Definition listed (x : point) : Prop := match x with PN k n => In (Named k n) peers | PA _ => True end.
Notation dom := (query_dom reg vis).
Notation info := (cluster_info cl peers allowed).
Definition fw_rules (single : bool) (restr : option bool) (h : hc val) : option (list (hc val * list (elem * elem))) :=
  minimized_rules cl info (cube_ops dom std_all reg) (cube_qops dom std_all reg) (fw_ops dom std_all reg) single restr h.

Lemma dom_words : dom 6 = VN true [] /\ dom 7 = VN true [] /\ forall e u m, dom e = VN u m -> e = 6 \/ e = 7.
Proof using.
  split; [reflexivity|]. split; [reflexivity|]. intros e u m E. unfold query_dom, std_dom in E. do 10 (destruct e as [|e]; [try discriminate; auto|]). discriminate.
Qed.
Lemma describes_peers : forall e x, elem_good cl info e -> (describes e x <-> pt_in x (elem_peers cl info e)).
Proof using LP.
  intros e x G. assert (Np : forall n p, In p (ns_pods cl info n) <-> In p peers /\ is_block p = false /\ cl_ns cl p = n) by (intros n p; rewrite ns_pods_In; tauto).
  destruct e as [l|key vs n|s|l|p]; cbn [describes elem_peers].
  - split.
    + intros (k & n & -> & H1 & H2). cbn [pt_in]. rewrite union_ns_In. right. exists (cl_ns cl (Named k n)). split; auto. apply Np. auto.
    + intros H. destruct x as [k n|y]; cbn [pt_in] in H.
      * apply union_ns_In in H as [[]|(m & Hm & H)]. apply Np in H as (H1 & _ & <-). exists k, n. auto.
      * destruct H as (b & H & _). apply union_ns_In in H as [[]|(m & Hm & H)]. apply Np in H as (_ & H & _). discriminate.
  - destruct G as (Ga & _ & G).
    assert (Lv : forall p v, In v vs -> In p peers -> is_block p = false -> cl_ns cl p = n -> (In p (pods_of_label info key v) <-> carries cl key v p)).
    { intros p v Hv Hp Bp En. destruct (G v Hv) as (q & Hq & Hn). apply Np in Hn as (_ & _ & Hn). apply (label_pods cl peers allowed LP key v q); auto; [|congruence].
      apply filter_In. split; auto. rewrite Bp. reflexivity. }
    split.
    + intros (k & m & -> & H1 & H2 & v & Hv & Hc). cbn [pt_in]. rewrite labels_In. right. exists v. split; auto. split; [apply Lv; auto|apply Np; auto].
    + intros H. destruct x as [k m|y]; cbn [pt_in] in H.
      * apply labels_In in H as [[]|(v & Hv & H1 & H2)]. apply Np in H2 as (H2 & H3 & H4). exists k, m. split; auto. split; auto. split; auto. exists v. split; auto. apply Lv; auto.
      * destruct H as (b & H & _). apply labels_In in H as [[]|(v & Hv & H1 & H2)]. apply Np in H2 as (_ & H & _). discriminate.
  - tauto.
  - split.
    + intros (y & -> & H). exists l. split; [left; auto|exact H].
    + intros H. destruct x as [k m|y]; cbn [pt_in In] in H; [destruct H as [H|[]]; discriminate|]. destruct H as (b & [H|[]] & M). injection H as <-. exists y. auto.
  - split.
    + intros (k & n & -> & ->). left. reflexivity.
    + intros H. destruct x as [k m|y]; cbn [pt_in In] in H; [destruct H as [H|[]]; subst p; exists k, m; auto|]. destruct H as (b & [H|[]] & M). subst p. discriminate.
Qed.
(** C36.  The connections [h] are possible ones between listed peers and addresses.  The computation ends; a connection of a rule is one of [h] or goes from a
    pod or host endpoint to itself; every connection of [h] with a non-empty host and path is one of a rule. *)
Theorem C36_rules : forall single restr h, q_ok dom std_rest h ->
  (forall pt, a_space dom pt -> a_mem pt h -> possible (a_src reg pt) (a_dst reg pt) /\ listed (a_src reg pt) /\ listed (a_dst reg pt)) ->
  exists r, fw_rules single restr h = Some r /\
    (forall pt, a_space dom pt -> opt (eq (a_tcp pt)) restr -> rules_allow r pt -> a_mem pt h \/ exists k n, k < 2 /\ a_src reg pt = PN k n /\ a_dst reg pt = PN k n) /\
    (forall pt, a_space dom pt -> pt 6 <> 0%Z -> pt 7 <> 0%Z -> a_mem pt h -> rules_allow r pt).
Proof using R HV NE Hpeers LP.
  intros single restr h Hh Gh. destruct dom_words as (E6 & E7 & Ew). pose proof (query_alg reg vis R HV NE) as QK.
  pose proof (q_claws dom std_rest reg vis _ _ QK) as L. pose proof (q_qlaws dom std_rest reg vis _ _ QK) as QL. pose proof (fw_laws dom reg vis _ QK E6 E7 Ew) as W.
  destruct (minimized_spec cl info _ _ _ _ _ _ _ _ _ _ vis _ _ L QL W Hpeers single restr h Hh) as (r & E & _ & S & Cp).
  { intros pt Sp M. destruct (Gh pt Sp M) as (G1 & G2 & G3). split; [exact G1|]. split; [destruct (a_src reg pt) eqn:Ea; unfold known_pt, q_src; rewrite Ea; auto|destruct (a_dst reg pt) eqn:Ea; unfold known_pt, q_dst; rewrite Ea; auto]. }
  exists r. split; [exact E|]. pose proof (minimized_good cl info _ _ _ single restr h r E) as G. split.
  - intros pt Sp Ht (p & l & s & d & H1 & H2 & M & D1 & D2). destruct (G p l H1 (s, d) H2) as [G1 G2]. cbn [fst snd] in *.
    apply (S p l (s, d) pt H1 H2 Sp Ht M). split; cbn [fst snd]; apply describes_peers; auto.
  - intros pt Sp N6 N7 M. destruct (Cp pt Sp (conj N6 N7) M) as (p & l & [s d] & H1 & H2 & Mp & X1 & X2). destruct (G p l H1 (s, d) H2) as [G1 G2]. cbn [fst snd] in *.
    exists p, l, s, d. split; auto. split; auto. split; auto. split; apply describes_peers; auto.
Qed.
End Rules.
Print Assumptions C36_rules.
