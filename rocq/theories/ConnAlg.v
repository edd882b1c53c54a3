(** * The policy model's connection sets, implemented by the modelled ConnectivityProperties objects.

    Dimensions: 0 = src_peers, 1 = dst_peers, 2 = protocols, then the others, in the order of
    ConnectivityCube.all_dimensions_list (ConnectivityCube.py:20-21). *)
From Coq Require Import ZArith List Bool Arith Lia String.
From Verif Require Import IntervalModel IntervalFacts HyperModel HyperFacts HyperOps HyperDims HyperTop HyperContain
                          HyperInst PropHyperCube ConnModel ConnFacts PortProtoModel PeerModel PeerFacts PeerSetFacts
                          PolicyModel PolicyLaws.
Import ListNotations.
Local Open Scope nat_scope.

Definition d_src : dim := 0.
Definition d_dst : dim := 1.
Definition d_proto : dim := 2.
Definition tcp_number : Z := 6%Z.   (* ProtocolNameResolver / ProtocolSet: TCP is 6 *)

(** get_empty_dimension_by_name, DimensionsManager.py:48-71, 132-140: CanonicalIntervalSet() for numeric
    dimensions, dfa_from_regex("") for hosts and paths: the language of the empty word, coded as {0}. *)
Definition dim_empty (dom : dim -> val) (d : dim) : val :=
  match dom d with VI _ => VI [] | VN _ _ => VN false [Ivl 0 0] end.
(** ConnectivityCube.__setitem__ for peers, ConnectivityCube.py:84-86. *)
Definition peers_val (reg : list peer) (s : peerset) : val := VI (oset (peer_interval_of reg s)).
(** ProtocolSet.get_protocol_set_with_single_protocol('TCP') and get_non_tcp_protocols. *)
Definition proto_val (dom : dim -> val) (b : bool) : val :=
  if b then VI [Ivl tcp_number tcp_number] else val_sub (dom d_proto) (VI [Ivl tcp_number tcp_number]).
Definition opt_set {X} (f : X -> val) (d : dim) (o : option X) (c : dim -> val) : dim -> val :=
  match o with Some x => ccube_set c d (f x) | None => c end.
Definition rect_cube (dom : dim -> val) (reg : list peer) (s d : option peerset) (pr : option bool) : dim -> val :=
  opt_set (proto_val dom) d_proto pr (opt_set (peers_val reg) d_dst d (opt_set (peers_val reg) d_src s (ccube_full (val_ops dom)))).

(** ConnectivityProperties.make_conn_props_from_dict, ConnectivityProperties.py:346-349 and the operators. *)
Definition cube_ops (dom : dim -> val) (all : list dim) (reg : list peer) : cops (hc val) :=
  let O := val_ops dom in
  COps (hempty Conn all) (h_or O all) (h_and O all) (h_sub O all) hbool (hc_eqb O)
       (fun x y => match h_contained O all x y with Some b => b | None => false end)
       (fun s d pr => make_props O (dim_empty dom) all (rect_cube dom reg s d pr)).

(** The peer or address with a given index; an index of the domain without a registered peer is mapped to a
    point that belongs to no peer set. *)
Definition no_point : point := PA (-1)%Z.
Definition point_of_index (reg : list peer) (z : Z) : point :=
  if (z <=? max_ipv4_index)%Z then PA z
  else if (z <=? max_ipv6_index)%Z then PA (z - min_ipv6_index + v6min)%Z
  else match nth_error reg (Z.to_nat (z - min_pod_index)) with
       | Some (Named k n) => PN k n
       | _ => no_point
       end.

Section Alg.
Context (dom : dim -> val) (rest : list dim) (reg vis : list peer) (D protos : iset).
Let all := d_src :: d_dst :: d_proto :: rest.
Let O := val_ops dom.
(** The domains: peers (all addresses and pod indices, among them those of the peers [vis]), protocols (several, TCP
    among them), the others arbitrary non-empty interval sets or all words.  [reg] are the registered peers, which
    determine the indices; [vis] are the peers whose indices are surely in the domain.  This covers the default domain
    of all pod indices (DimensionsManager.py:36-76, with vis = reg) and the domain set for a query
    (NetworkConfigQuery.py:85-90, with vis = the peers of its configs). *)
Record alg_ok : Prop := {
  ok_doms : doms_ok dom;
  ok_nodup : NoDup all;
  ok_reg : reg_ok reg;
  ok_vis : incl vis reg;
  ok_D : canonical D;
  ok_D_bound : forall z, mem z D -> (0 <= z <= max_ipv4_index)%Z \/ (min_ipv6_index <= z <= max_ipv6_index)%Z
                                 \/ (min_pod_index <= z <= max_pod_index)%Z;
  ok_D_addr : forall z, (0 <= z <= max_ipv4_index)%Z \/ (min_ipv6_index <= z <= max_ipv6_index)%Z -> mem z D;
  ok_D_vis : forall p j, In p vis -> peer_index reg p = Some j -> mem (min_pod_index + j)%Z D;
  ok_D_pod : exists z, mem z D /\ (min_pod_index <= z)%Z;
  ok_src : dom d_src = VI D;
  ok_dst : dom d_dst = VI D;
  ok_protos : dom d_proto = VI protos;
  ok_tcp : mem tcp_number protos;
  ok_other : exists z, mem z protos /\ z <> tcp_number
}.
Context (K : alg_ok).
Let L := val_laws dom (ok_doms K).
Let N := ok_nodup K.
Let NE : all <> [].
Proof. discriminate. Qed.

Definition a_src (p : dim -> Z) : point := point_of_index reg (p d_src).
Definition a_dst (p : dim -> Z) : point := point_of_index reg (p d_dst).
Definition a_tcp (p : dim -> Z) : bool := (p d_proto =? tcp_number)%Z.
Definition a_space (p : dim -> Z) : Prop := in_space (val_ops dom) val_mem p.
Definition a_mem (p : dim -> Z) (x : hc val) : Prop := denot val_mem x p.
Definition a_ok (x : hc val) : Prop := obj (val_ops dom) val_mem (val_valid dom) false all x.
Definition a_safe (x y : hc val) : Prop := sub_safe all x y = true.

Local Opaque min_pod_index max_pod_index min_ipv6_index max_ipv6_index max_ipv4_index v4max v6min v6max.

(** A point's coordinate lies in the interval of a peer set iff the point's peer is in the set. *)
Lemma peers_val_ok : forall s, pok vis s -> exists r, peer_interval_of reg s = Some r /\ canonical r /\
  forall z, mem z r -> mem z D /\ exists x, pt_in x s /\ point_index reg x = Some z.
Proof.
  intros s [P1 P2'].
  assert (P2 : forall k n, In (Named k n) s -> In (Named k n) reg) by (intros k n H; apply (ok_vis K); auto).
  destruct (peer_interval_ok reg s (ok_reg K) P1 P2) as (r & E & C & M).
  exists r. split; auto. split; auto. intros z Hz. split; [|apply M; auto].
  apply M in Hz as (x & Hx & Ex). pose proof icons as (K1 & K2 & K3 & K4 & K5). pose proof consts as (Q1 & Q2 & Q3).
  destruct x as [k n|y]; cbn [point_index] in Ex.
  - destruct (peer_index reg (Named k n)) as [j|] eqn:Ej; [|discriminate]. cbn in Ex. injection Ex as <-.
    cbn [pt_in] in Hx. apply (ok_D_vis K (Named k n)); auto.
  - injection Ex as <-. destruct Hx as (l & Hl & My). apply P1 in Hl. destruct Hl as [_ Hv]. specialize (Hv y My). unfold vpos in Hv.
    apply (ok_D_addr K). unfold addr_index. destruct (Z.leb_spec y v4max); [left|right]; lia.
Qed.

Lemma point_index_of : forall s z, pok vis s -> mem z D ->
  (pt_in (point_of_index reg z) s <-> exists x, pt_in x s /\ point_index reg x = Some z).
Proof.
  intros s z [P1 P2'] Hz. apply (ok_D_bound K) in Hz. pose proof icons as (K1 & K2 & K3 & K4 & K5). pose proof consts as (Q1 & Q2 & Q3).
  assert (NP : ~ pt_in no_point s).
  { intros (l & Hl & Hm). apply P1 in Hl as [_ Hv]. specialize (Hv _ Hm). unfold vpos in Hv. lia. }
  unfold point_of_index. destruct (Z.leb_spec z max_ipv4_index) as [H4|H4].
  { split.
    - intros H. exists (PA z). split; auto. cbn [point_index]. unfold addr_index. destruct (Z.leb_spec z v4max); [auto|lia].
    - intros (x & Hx & Ex). destruct x as [k n|y]; cbn [point_index] in Ex.
      + destruct (peer_index reg (Named k n)) as [j|] eqn:Ej; [|discriminate]. cbn in Ex. injection Ex as Ex.
        apply peer_index_spec in Ej as [J1 _]; [lia|apply (ok_reg K)].
      + injection Ex as Ex. replace z with y; auto. pose proof Hx as (l & Hl & Hm). apply P1 in Hl as [_ Hv]. specialize (Hv _ Hm).
        unfold addr_index in Ex. unfold vpos in Hv. destruct (Z.leb_spec y v4max); lia. }
  destruct (Z.leb_spec z max_ipv6_index) as [H6|H6].
  { split.
    - intros H. exists (PA (z - min_ipv6_index + v6min)). split; auto. cbn [point_index]. unfold addr_index.
      destruct (Z.leb_spec (z - min_ipv6_index + v6min) v4max); [lia|f_equal; lia].
    - intros (x & Hx & Ex). destruct x as [k n|y]; cbn [point_index] in Ex.
      + destruct (peer_index reg (Named k n)) as [j|] eqn:Ej; [|discriminate]. cbn in Ex. injection Ex as Ex.
        apply peer_index_spec in Ej as [J1 _]; [lia|apply (ok_reg K)].
      + injection Ex as Ex. replace (z - min_ipv6_index + v6min)%Z with y; auto. pose proof Hx as (l & Hl & Hm).
        apply P1 in Hl as [_ Hv]. specialize (Hv _ Hm). unfold addr_index in Ex. unfold vpos in Hv. destruct (Z.leb_spec y v4max); lia. }
  assert (Ea : forall y, pt_in (PA y) s -> point_index reg (PA y) = Some z -> False).
  { intros y (l & Hl & Hm) Ex. cbn [point_index] in Ex. injection Ex as Ex. apply P1 in Hl as [_ Hv]. specialize (Hv _ Hm).
    unfold addr_index in Ex. unfold vpos in Hv. destruct (Z.leb_spec y v4max); lia. }
  destruct (nth_error reg (Z.to_nat (z - min_pod_index))) as [[k n|l]|] eqn:En.
  - assert (Ej : peer_index reg (Named k n) = Some (z - min_pod_index)%Z).
    { apply peer_index_spec; [apply (ok_reg K)|]. split; [lia|auto]. }
    split.
    + intros H. exists (PN k n). split; auto. cbn [point_index]. rewrite Ej. cbn. f_equal. lia.
    + intros (x & Hx & Ex). destruct x as [k' n'|y]; [|destruct (Ea y Hx Ex)]. cbn [point_index] in Ex.
      destruct (peer_index reg (Named k' n')) as [j|] eqn:Ej'; [|discriminate]. cbn in Ex. injection Ex as Ex.
      apply peer_index_spec in Ej' as [J1 J2]; [|apply (ok_reg K)]. replace j with (z - min_pod_index)%Z in J2 by lia. congruence.
  - exfalso. destruct (ok_reg K) as (_ & R2 & _). apply nth_error_In in En. apply R2 in En. discriminate.
  - split; [intro H; destruct (NP H)|]. intros (x & Hx & Ex). destruct x as [k' n'|y]; [|destruct (Ea y Hx Ex)]. cbn [point_index] in Ex.
    destruct (peer_index reg (Named k' n')) as [j|] eqn:Ej'; [|discriminate]. cbn in Ex. injection Ex as Ex.
    apply peer_index_spec in Ej' as [J1 J2]; [|apply (ok_reg K)]. replace j with (z - min_pod_index)%Z in J2 by lia. congruence.
Qed.

Lemma peers_val_valid : forall s d, pok vis s -> dom d = VI D -> val_valid dom d (peers_val reg s).
Proof.
  intros s d P E. destruct (peers_val_ok s P) as (r & Er & C & M). unfold peers_val. rewrite Er. cbn [oset].
  split; [exact C|]. rewrite E. split; [exact I|]. cbn [val_mem]. intros z Hz. apply M; auto.
Qed.
Lemma peers_val_mem : forall s z, pok vis s -> mem z D -> (val_mem z (peers_val reg s) <-> pt_in (point_of_index reg z) s).
Proof.
  intros s z P Hz. rewrite point_index_of by auto. destruct P as [P1 P2'].
  assert (P2 : forall k n, In (Named k n) s -> In (Named k n) reg) by (intros k n H; apply (ok_vis K); auto).
  destruct (peer_interval_ok reg s (ok_reg K) P1 P2) as (r & E & C & M). unfold peers_val. rewrite E. cbn [oset val_mem]. apply M.
Qed.
Lemma tcp_valid : val_valid dom d_proto (VI [Ivl tcp_number tcp_number]).
Proof.
  split; [cbn; lia|]. rewrite (ok_protos K). split; [exact I|]. cbn [val_mem]. intros z Hz.
  apply mem_cons in Hz as [Hz|Hz]; [|apply mem_nil in Hz; tauto]. cbn [lo hi] in Hz. replace z with tcp_number by lia. apply (ok_tcp K).
Qed.
Lemma proto_val_valid : forall b, val_valid dom d_proto (proto_val dom b).
Proof.
  intros [|]; [apply tcp_valid|]. unfold proto_val. apply (L_sub_valid _ _ _ L d_proto); [apply (L_dom _ _ _ L)|apply tcp_valid].
Qed.
Lemma proto_val_mem : forall b z, val_mem z (dom d_proto) -> (val_mem z (proto_val dom b) <-> (z =? tcp_number)%Z = b).
Proof.
  intros b z Hz.
  assert (T : val_mem z (VI [Ivl tcp_number tcp_number]) <-> (z =? tcp_number)%Z = true).
  { cbn [val_mem]. rewrite mem_cons, mem_nil. cbn [lo hi]. rewrite Z.eqb_eq. lia. }
  destruct b; [apply T|]. unfold proto_val. etransitivity; [apply (L_sub _ _ _ L d_proto); [apply (L_dom _ _ _ L)|apply tcp_valid]|].
  rewrite T. destruct (z =? tcp_number)%Z; intuition congruence.
Qed.

Lemma rect_cube_valid : forall s d pr e, opt (pok vis) s -> opt (pok vis) d -> val_valid dom e (rect_cube dom reg s d pr e).
Proof.
  intros s d pr e Hs Hd. unfold rect_cube, opt_set.
  assert (V0 : val_valid dom e (ccube_full O e)) by apply (L_dom _ _ _ L).
  assert (V1 : val_valid dom e (match s with Some x => ccube_set (ccube_full O) d_src (peers_val reg x) | None => ccube_full O end e)).
  { destruct s as [s|]; auto. unfold ccube_set. destruct (Nat.eqb_spec e d_src) as [->|]; auto. apply peers_val_valid; auto. apply (ok_src K). }
  destruct pr as [b|].
  - unfold ccube_set at 1. destruct (Nat.eqb_spec e d_proto) as [->|]; [apply proto_val_valid|].
    destruct d as [d|]; auto. unfold ccube_set at 1. destruct (Nat.eqb_spec e d_dst) as [->|]; auto. apply peers_val_valid; auto. apply (ok_dst K).
  - destruct d as [d|]; auto. unfold ccube_set at 1. destruct (Nat.eqb_spec e d_dst) as [->|]; auto. apply peers_val_valid; auto. apply (ok_dst K).
Qed.

Lemma rect_cube_src : forall s d pr, rect_cube dom reg s d pr d_src = match s with Some x => peers_val reg x | None => dom d_src end.
Proof. intros [s|] [d|] [b|]; reflexivity. Qed.
Lemma rect_cube_dst : forall s d pr, rect_cube dom reg s d pr d_dst = match d with Some x => peers_val reg x | None => dom d_dst end.
Proof. intros [s|] [d|] [b|]; reflexivity. Qed.
Lemma rect_cube_proto : forall s d pr, rect_cube dom reg s d pr d_proto = match pr with Some b => proto_val dom b | None => dom d_proto end.
Proof. intros [s|] [d|] [b|]; reflexivity. Qed.
Lemma rect_cube_other : forall s d pr e, e <> d_src -> e <> d_dst -> e <> d_proto -> rect_cube dom reg s d pr e = dom e.
Proof.
  intros s d pr e N1 N2 N3. unfold rect_cube, opt_set, ccube_set.
  apply Nat.eqb_neq in N1, N2, N3. destruct s, d, pr; rewrite ?N1, ?N2, ?N3; reflexivity.
Qed.

(** The emptiness test of a rectangle only meets the empty values of the three dimensions that are set. *)
Lemma rect_is_empty : forall s d pr, opt (pok vis) s -> opt (pok vis) d ->
  make_props O (dim_empty dom) all (rect_cube dom reg s d pr) =
  make_props O (fun e => match dom e with VI _ => VI [] | VN _ _ => VN false [] end) all (rect_cube dom reg s d pr).
Proof.
  intros s d pr Hs Hd. unfold make_props.
  assert (E : forall l, ccube_is_empty O (dim_empty dom) l (rect_cube dom reg s d pr) =
    ccube_is_empty O (fun e => match dom e with VI _ => VI [] | VN _ _ => VN false [] end) l (rect_cube dom reg s d pr)).
  { induction l as [|e l IH]; auto. unfold ccube_is_empty in *. cbn [existsb]. rewrite IH. f_equal. unfold dim_empty.
    destruct (dom e) as [m|c m] eqn:Ee; auto.
    assert (e <> d_src) by (intros ->; rewrite (ok_src K) in Ee; discriminate).
    assert (e <> d_dst) by (intros ->; rewrite (ok_dst K) in Ee; discriminate).
    assert (e <> d_proto) by (intros ->; rewrite (ok_protos K) in Ee; discriminate).
    rewrite rect_cube_other by auto. pose proof (ok_doms K e) as De. rewrite Ee in *. destruct De as [-> ->]. reflexivity. }
  rewrite E. reflexivity.
Qed.

Lemma rect_spec : forall s d pr, opt (pok vis) s -> opt (pok vis) d ->
  let h := make_props O (dim_empty dom) all (rect_cube dom reg s d pr) in
  a_ok h /\ forall p, a_space p -> (a_mem p h <-> opt (pt_in (a_src p)) s /\ opt (pt_in (a_dst p)) d /\ opt (eq (a_tcp p)) pr).
Proof.
  intros s d pr Hs Hd h. unfold h. rewrite rect_is_empty by auto.
  destruct (make_props_spec O val_mem (val_valid dom) L all (fun e => match dom e with VI _ => VI [] | VN _ _ => VN false [] end)
              (rect_cube dom reg s d pr) N NE) as [A B].
  - intros e _. apply rect_cube_valid; auto.
  - intros e _. split.
    + unfold val_valid. destruct (dom e) eqn:Ee; cbn; (split; [exact I|]); (split; [exact I|]); intros x Hx; apply mem_nil in Hx; tauto.
    + intros x. destruct (dom e); cbn [val_mem]; rewrite mem_nil; tauto.
  - split; [exact A|]. intros p Hp. unfold a_mem. rewrite B by exact Hp.
    assert (Ps : mem (p d_src) D) by (specialize (Hp d_src); cbn in Hp; rewrite (ok_src K) in Hp; exact Hp).
    assert (Pd : mem (p d_dst) D) by (specialize (Hp d_dst); cbn in Hp; rewrite (ok_dst K) in Hp; exact Hp).
    assert (Pp : val_mem (p d_proto) (dom d_proto)) by exact (Hp d_proto).
    assert (Es : val_mem (p d_src) (rect_cube dom reg s d pr d_src) <-> opt (pt_in (a_src p)) s).
    { rewrite rect_cube_src. destruct s as [s|]; cbn [opt]; [apply peers_val_mem; auto|]. split; intros _; [exact I|exact (Hp d_src)]. }
    assert (Ed : val_mem (p d_dst) (rect_cube dom reg s d pr d_dst) <-> opt (pt_in (a_dst p)) d).
    { rewrite rect_cube_dst. destruct d as [d|]; cbn [opt]; [apply peers_val_mem; auto|]. split; intros _; [exact I|exact (Hp d_dst)]. }
    assert (Ep : val_mem (p d_proto) (rect_cube dom reg s d pr d_proto) <-> opt (eq (a_tcp p)) pr).
    { rewrite rect_cube_proto. destruct pr as [b|]; cbn [opt]; [apply proto_val_mem; auto|]. split; intros _; [exact I|exact Pp]. }
    split.
    + intros H. rewrite <- Es, <- Ed, <- Ep. split; [|split]; apply H; unfold all; cbn [In]; auto.
    + intros (H1 & H2 & H3) e _. destruct (Nat.eq_dec e d_src) as [->|N1]; [apply Es; auto|].
      destruct (Nat.eq_dec e d_dst) as [->|N2]; [apply Ed; auto|].
      destruct (Nat.eq_dec e d_proto) as [->|N3]; [apply Ep; auto|]. rewrite rect_cube_other by auto. apply Hp.
Qed.

(** ** Which subtractions are safe *)
Lemma fresh_safe : forall c y, a_ok y -> a_safe (hempty c all) y.
Proof.
  intros c y Hy. unfold a_safe, sub_safe. cbn [hempty act_of]. apply orb_true_iff. right.
  reflexivity.
Qed.

Lemma make_props_cases : forall s d pr, opt (pok vis) s -> opt (pok vis) d ->
  let h := make_props O (dim_empty dom) all (rect_cube dom reg s d pr) in
  h = hempty Conn all \/ hbool h = true.
Proof.
  intros s d pr Hs Hd h. destruct (rect_spec s d pr Hs Hd) as [A _]. fold h in A.
  destruct (hbool h) eqn:B; auto. left. subst h. rewrite rect_is_empty in * by auto.
  unfold make_props in *. destruct (ccube_is_empty O _ all (rect_cube dom reg s d pr)) eqn:Ee; auto.
  destruct (ccube_ordered O all (rect_cube dom reg s d pr)) as [|q qs] eqn:Eo; [discriminate|].
  exfalso.
  (* every value is non-empty, so there is a point *)
  assert (Hne : forall e, In e all -> exists x, val_mem x (rect_cube dom reg s d pr e)).
  { intros e He. assert (V1 : val_valid dom e (rect_cube dom reg s d pr e)) by (apply rect_cube_valid; auto).
    apply (L_bool _ _ _ L e); auto. destruct (vbool (val_ops dom) (rect_cube dom reg s d pr e)) eqn:Bv; auto. exfalso.
    assert (X : ccube_is_empty O (fun e => match dom e with VI _ => VI [] | VN _ _ => VN false [] end) all (rect_cube dom reg s d pr) = true);
      [|congruence].
    unfold ccube_is_empty. apply existsb_exists. exists e. split; auto. cbn [val_ops O vbool veqb] in Bv |- *.
    destruct V1 as (W1 & W2 & _). destruct (dom e) as [m|c m]; destruct (rect_cube dom reg s d pr e) as [l|c' l]; cbn in W2; try tauto.
    - cbn in Bv. destruct l; [reflexivity|discriminate].
    - destruct c'; cbn in Bv; [discriminate|]. destruct l; [reflexivity|discriminate]. }
  pose (p := fun e => if mem_dim e all then vrep O (rect_cube dom reg s d pr e) else vrep O (dom e)).
  assert (Hin : a_space p).
  { intros e. unfold p. destruct (mem_dim e all) eqn:Em.
    - apply mem_dim_In in Em. pose proof (rect_cube_valid s d pr e Hs Hd) as V1.
      apply (L_sub_dom _ _ _ L e (rect_cube dom reg s d pr e)); auto. apply (L_rep _ _ _ L e); auto.
    - apply (L_rep _ _ _ L e); [apply (L_dom _ _ _ L)|apply (L_dom_ne _ _ _ L)]. }
  pose proof (rect_spec s d pr Hs Hd) as [A' M]. cbv zeta in A', M. rewrite rect_is_empty in A', M by auto.
  assert (Hm : a_mem p (make_props O (fun e => match dom e with VI _ => VI [] | VN _ _ => VN false [] end) all (rect_cube dom reg s d pr))).
  { destruct (make_props_spec O val_mem (val_valid dom) L all (fun e => match dom e with VI _ => VI [] | VN _ _ => VN false [] end)
              (rect_cube dom reg s d pr) N NE) as [_ B'].
    - intros e _. apply rect_cube_valid; auto.
    - intros e _. split.
      + unfold val_valid. destruct (dom e) eqn:Ee'; cbn; (split; [exact I|]); (split; [exact I|]); intros x Hx; apply mem_nil in Hx; tauto.
      + intros x. destruct (dom e); cbn [val_mem]; rewrite mem_nil; tauto.
    - apply B'; [exact Hin|]. intros e He. unfold p. rewrite (proj2 (mem_dim_In _ _) He). apply (L_rep _ _ _ L e); auto.
      apply rect_cube_valid; auto. }
  assert (Ht : hbool (make_props O (fun e => match dom e with VI _ => VI [] | VN _ _ => VN false [] end) all (rect_cube dom reg s d pr)) = true).
  { apply (hbool_spec O val_mem (val_valid dom) L false all _ N A'). exists p. split; [exact Hin|exact Hm]. }
  unfold make_props in Ht. rewrite Ee, Eo in Ht. congruence.
Qed.

(** An object that is empty after a safe subtraction has all active dimensions of the subtracted object. *)
Lemma sub_empty_act : forall x y, a_ok x -> a_ok y -> hbool y = true -> is_all y = false -> a_safe x y ->
  hbool (h_sub O all x y) = false -> forall e, In e (act_of y) -> In e (act_of (h_sub O all x y)).
Proof.
  intros x y Hx Hy By Iy Sf B e He.
  destruct (obj_cases _ _ _ _ _ _ Hy) as [E|[(By' & _)|Py]]; [rewrite E in Iy; discriminate|congruence|].
  assert (T : forall h : hc val, false = true -> cls_of h = Plain) by discriminate.
  pose proof Py as (NEy & Sy & Gy & _).
  destruct (obj_cases _ _ _ _ _ _ Hx) as [E|[(Bx & Ix & Ex & NEx & Sx)|Px]].
  2:{ rewrite (sub_from_empty O val_mem (val_valid dom) L false all x y N (T y) Bx Ex NEx Sx Py Sf). cbn [act_of].
      apply by_order_in. split; [apply (subseq_in _ _ Sy); auto|apply in_app_iff; auto]. }
  all: assert (C1 : x = hall (cls_of x) \/ proper (val_ops dom) val_mem (val_valid dom) false all x) by (auto).
  all: clear Sf; destruct (prepare_spec O val_mem (val_valid dom) L false all x y N (T x) (T y) C1 Py)
        as (ds & x' & y' & Ep & NEd & Sd & G1 & G2 & _ & _).
  all: assert (Hds : In e ds).
  1,3: (unfold prepare in Ep; destruct ds as [|d0 ds0]; [congruence|];
        destruct (gc_inv _ _ _ _ _ _ _ G2) as (c2 & l2 & Ey' & _);
        destruct (dims_eqb (act_of x) (act_of y)) eqn:Eq;
        [injection Ep as <- <-; rewrite Ey' in He; exact He|];
        destruct (subset_dims (act_of x) (act_of y)) eqn:Es;
        [injection Ep as <- <-; rewrite Ey' in He; exact He|]).
  1: { exfalso. rewrite E in Es. discriminate. }
  1: { injection Ep as _ Ey2. destruct Px as (NEx & Sx & Gx & _).
       destruct (set_active_spec O val_mem (val_valid dom) L false all (act_of x ++ act_of y) y N NEy Sy) as [G3 _].
       - apply (proper_ok O val_mem (val_valid dom) L false all y N (T y) Py).
       - intros f Hf. apply in_app_iff in Hf as [Hf|Hf]; [apply (subseq_in _ _ Sx)|apply (subseq_in _ _ Sy)]; auto.
       - rewrite Ey2 in G3. rewrite Ey' in G3. set (bo := by_order all (act_of y ++ (act_of x ++ act_of y))) in *.
         assert (Eb : bo = d0 :: ds0).
         { destruct bo as [|b0 bs] eqn:Eb.
           - exfalso. apply (by_order_ne all (act_of y) (act_of x ++ act_of y)); auto.
           - destruct (gc_inv _ _ _ _ _ _ _ G3) as (c3 & l3 & E3 & _). injection E3 as _ -> -> _. reflexivity. }
         rewrite <- Eb. unfold bo. apply by_order_in. split; [apply (subseq_in _ _ Sy); auto|apply in_app_iff; auto]. }
  all: unfold h_sub in B |- *; rewrite Iy, By in B |- *; cbn [negb] in B |- *; rewrite Ep in B |- *.
  all: assert (Nd : NoDup ds) by (eapply subseq_nodup; eauto).
  all: destruct (sub_aux_spec O val_mem (val_valid dom) L false ds x' y' Nd NEd G1 G2) as (ls & El & Cl & _).
  all: rewrite El in B |- *; cbn [override] in B |- *.
  all: destruct Cl as [->|G]; [rewrite reduce_empty by auto; exact Hds|exfalso].
  all: rewrite El in G; assert (G' : gc (val_ops dom) val_mem (val_valid dom) false ds (Node (cls_of x) ds ls)) by (eapply gc_retag; eauto).
  all: destruct (reduce_active_spec O val_mem (val_valid dom) L false all (Node (cls_of x) ds ls)) as (_ & _ & [C|C]); auto.
  all: first [rewrite C in B; discriminate | destruct (proper_hbool _ _ _ _ _ _ C) as [Bt _]; congruence].
Qed.

Lemma first_dim : forall l, In d_src l -> exists t, by_order all l = d_src :: t.
Proof. intros l H. apply mem_dim_In in H. unfold by_order, all. cbn [filter]. rewrite H. eauto. Qed.

Theorem cube_laws : claws (cube_ops dom all reg) a_src a_dst a_tcp a_space a_mem a_ok a_safe vis.
Proof.
  assert (EB : forall y, a_ok y -> (forall pt, a_space pt -> ~ a_mem pt y) -> hbool y = false).
  { intros y Hy Hn. destruct (hbool y) eqn:B; auto. exfalso.
    apply (hbool_spec O val_mem (val_valid dom) L false all y N Hy) in B as (p & P1 & P2). apply (Hn p P1 P2). }
  assert (EA : forall y : hc val, a_ok y -> hbool y = false -> is_all y = false).
  { intros y Hy B. destruct (obj_cases _ _ _ _ _ _ Hy) as [E|[(_ & I & _)|Pr]]; auto.
    - rewrite E in B. discriminate.
    - apply (proper_hbool _ _ _ _ _ _ Pr). }
  constructor; cbn [cube_ops c_empty c_or c_and c_sub c_bool c_eqb c_cont c_rect]; fold O.
  - intros x pt Hx. unfold a_mem. rewrite <- (contains_spec O val_mem (val_valid dom) L false all x pt N Hx).
    destruct (contains O pt x); [left; auto|right; discriminate].
  - apply hempty_obj; [exact NE|discriminate].
  - intros pt. apply empty_denot; exact NE.
  - intros x y Hx Hy. apply (h_or_spec O val_mem (val_valid dom) L false all x y N NE Hx Hy).
  - intros x y pt Hx Hy Hp. apply (h_or_spec O val_mem (val_valid dom) L false all x y N NE Hx Hy). exact Hp.
  - intros x y Hx Hy. apply (h_and_spec O val_mem (val_valid dom) L false all x y N NE Hx Hy).
  - intros x y pt Hx Hy Hp. apply (h_and_spec O val_mem (val_valid dom) L false all x y N NE Hx Hy). exact Hp.
  - intros x y Hx Hy Hs. apply (h_sub_spec O val_mem (val_valid dom) L false all x y N NE Hx Hy Hs).
  - intros x y pt Hx Hy Hs Hp. apply (h_sub_spec O val_mem (val_valid dom) L false all x y N NE Hx Hy Hs). exact Hp.
  - intros x Hx. apply (hbool_spec O val_mem (val_valid dom) L false all x N Hx).
  - intros x y Hx Hy. destruct (h_contained_spec O val_mem (val_valid dom) L false all x y N Hx Hy) as (b & -> & Hb). exact Hb.
  - intros x y Hx Hy E pt Hp. apply (eqb_objects_sound O val_mem (val_valid dom) L false all x y N Hx Hy E). exact Hp.
  - intros s d pr Hs Hd. apply (rect_spec s d pr Hs Hd).
  - intros s d pr pt Hs Hd Hp. apply (rect_spec s d pr Hs Hd). exact Hp.
  - intros x y pt Hx Hy Hp Hm. unfold a_safe, sub_safe.
    assert (B : hbool x = true) by (apply (hbool_spec O val_mem (val_valid dom) L false all x N Hx); exists pt; auto).
    rewrite B. reflexivity.
  - intros x y Hx Hy Hn. unfold a_safe, sub_safe. rewrite (EB y Hy Hn). cbn [negb]. rewrite orb_true_r. reflexivity.
  - intros y Hy. apply fresh_safe; auto.
  - intros s d pr y Hs Hd Hy. destruct (make_props_cases s d pr Hs Hd) as [E|B].
    + rewrite E. apply fresh_safe; auto.
    + unfold a_safe, sub_safe. rewrite B. reflexivity.
  - intros x s d pr y Hx Hs Hd Hy (q & Q1 & Q2) (r & R1 & R2) Sf.
    set (h := make_props O (dim_empty dom) all (rect_cube dom reg (Some s) d pr)) in *.
    destruct (rect_spec (Some s) d pr Hs Hd) as [A M]. fold h in A, M.
    assert (Bh : hbool h = true) by (apply (hbool_spec O val_mem (val_valid dom) L false all h N A); exists q; auto).
    assert (Ih : is_all h = false).
    { destruct (is_all h) eqn:Ih; auto. exfalso.
      assert (Hr : a_mem r h) by (apply (is_all_spec O val_mem (val_valid dom) L false all h N A); auto).
      apply (M r R1) in Hr as [Hr _]. apply R2. exact Hr. }
    assert (H0 : In d_src (act_of h)).
    { destruct (in_dec Nat.eq_dec d_src (act_of h)) as [H|H]; auto. exfalso.
      pose (p := upd q d_src (r d_src)).
      assert (Hp : a_space p). { intros e. unfold p, upd. destruct (Nat.eqb_spec e d_src) as [->|]; [apply R1|apply Q1]. }
      assert (Hm : a_mem p h) by (apply (indom_upd_indep val_mem h d_src q (r d_src)); auto).
      apply (M p Hp) in Hm as [Hm _]. cbn [opt] in Hm. apply R2. exact Hm. }
    unfold a_safe. destruct (hbool (h_sub O all x h)) eqn:B; [unfold sub_safe; rewrite B; reflexivity|].
    pose proof (sub_empty_act x h Hx A Bh Ih Sf B d_src H0) as H1.
    unfold sub_safe. apply orb_true_iff. right.
    destruct (first_dim (act_of (h_sub O all x h) ++ act_of y)) as [t ->]; [apply in_app_iff; auto|]. apply mem_dim_In. exact H1.
  - intros x y Hx Hy Hn. pose proof (EB y Hy Hn) as B. unfold h_or. rewrite (EA y Hy B), B. cbn [negb orb].
    destruct (is_all x) eqn:Ix; auto. destruct (obj_cases _ _ _ _ _ _ Hx) as [E|[(_ & I & _)|Pr]]; [auto|congruence|].
    destruct (proper_hbool _ _ _ _ _ _ Pr) as [_ I]. congruence.
  - intros x y Hx Hy Hn. pose proof (EB y Hy Hn) as B. unfold h_sub. rewrite (EA y Hy B), B. reflexivity.
  - intros y Hy. destruct (obj_cases _ _ _ _ _ _ Hy) as [E|[(B & I & _)|Pr]].
    + rewrite E. apply (sub_all O all (hempty Conn all) (cls_of y) N NE).
    + unfold h_sub. rewrite I, B. reflexivity.
    + rewrite (sub_from_empty O val_mem (val_valid dom) L false all (hempty Conn all) y N); auto; try reflexivity; try discriminate.
      * cbn [hempty act_of cls_of]. unfold hempty. f_equal. apply (subseq_antisym all); auto; [apply by_order_subseq|apply subseq_refl|].
        intro e. rewrite by_order_in, in_app_iff. tauto.
      * apply subseq_refl.
      * apply fresh_safe. exact Hy.
Qed.
End Alg.
