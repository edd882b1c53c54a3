(** * The dimension table of the code, and a small cluster used by the examples. *)
From Coq Require Import ZArith List Bool Arith Lia String.
From Verif Require Import IntervalModel IntervalFacts HyperModel HyperInst PropHyperCube ConnModel PortProtoModel
                          PeerModel PeerFacts PeerSetFacts PolicyModel PolicyLaws ConnAlg.
Import ListNotations.
Local Open Scope string_scope.
Local Open Scope nat_scope.

(** DimensionsManager.py:36-76 with all_dimensions_list, ConnectivityCube.py:20-21: 0 src_peers, 1 dst_peers,
    2 protocols, 3 src_ports, 4 dst_ports, 5 methods, 6 hosts, 7 paths, 8 icmp_type, 9 icmp_code; other names get
    default_interval_domain_tuple. *)
Definition std_peers : iset := oset all_peers_interval.
Definition std_dom (d : dim) : val :=
  match d with
  | 0 | 1 => VI std_peers
  | 2 => VI [Ivl 0 255]
  | 3 | 4 => VI [Ivl 1 65535]
  | 5 => VI [Ivl 0 8]
  | 6 | 7 => VN true []
  | 8 => VI [Ivl 0 254]
  | 9 => VI [Ivl 0 255]
  | _ => VI [Ivl 0 100000]
  end.
Definition std_rest : list dim := [3; 4; 5; 6; 7; 8; 9].
Definition std_all : list dim := [0; 1; 2; 3; 4; 5; 6; 7; 8; 9].

Lemma std_alg : forall reg, reg_ok reg -> alg_ok std_dom std_rest reg reg std_peers [Ivl 0 255].
Proof.
  intros reg R.
  assert (E : std_peers = [Ivl min_ipv4_index max_ipv4_index; Ivl min_ipv6_index max_ipv6_index; Ivl min_pod_index max_pod_index])
    by (vm_compute; reflexivity).
  assert (M : forall z, mem z std_peers <-> (0 <= z <= max_ipv4_index)%Z \/ (min_ipv6_index <= z <= max_ipv6_index)%Z
                                 \/ (min_pod_index <= z <= max_pod_index)%Z).
  { intros z. rewrite E, !mem_cons, mem_nil. cbn [lo hi]. unfold min_ipv4_index. generalize max_ipv4_index min_ipv6_index max_ipv6_index min_pod_index max_pod_index. lia. }
  constructor; auto; try reflexivity.
  - intros d. do 10 (destruct d as [|d]; [vm_compute; repeat split; try reflexivity; intros; discriminate|]).
    vm_compute. repeat split; try reflexivity; intros; discriminate.
  - unfold d_src, d_dst, d_proto, std_rest. repeat (constructor; [cbn; intuition discriminate|]). constructor.
  - intros p H. exact H.
  - rewrite E. cbn [canonical canon_from lo hi]. repeat split; vm_compute; first [reflexivity|intro; discriminate].
  - intros z H. apply M; auto.
  - intros z [H|H]; apply M; auto.
  - intros p j Hp Hj. apply M. right; right. apply peer_index_spec in Hj as [J1 J2]; [|exact (proj1 R)].
    assert (Z.to_nat j < List.length reg) by (apply nth_error_Some; congruence).
    destruct R as (_ & _ & R3). unfold max_num_of_pods in R3. pose proof icons as (K1 & K2 & K3 & K4 & K5).
    assert (K6 : (max_pod_index = min_pod_index + 9999)%Z) by (vm_compute; reflexivity).
    clear - J1 H R3 K6. generalize dependent max_pod_index. generalize dependent min_pod_index. intros; lia.
  - exists min_pod_index. split; [|apply Z.le_refl]. apply M. right; right. vm_compute. split; discriminate.
  - exists (Ivl 0 255). split; [left; auto|]. cbn [lo hi]. unfold tcp_number. lia.
  - exists 17%Z. split; [exists (Ivl 0 255); split; [left; auto|cbn [lo hi]; lia]|discriminate].
Qed.

(** Three pods, a host endpoint and a DNS entry. *)
Definition pa := Named 0 "ns/a". Definition pb := Named 0 "ns/b". Definition pc := Named 0 "ns/c".
Definition hep := Named 1 "hep". Definition dns := Named 2 "www.ibm.com".
Definition ex_reg : list peer := [pa; pb; pc; hep; dns].
Lemma ex_reg_ok : reg_ok ex_reg.
Proof.
  split; [|split; [|vm_compute; discriminate]].
  - repeat (constructor; [cbn; unfold pa, pb, pc, hep, dns; intuition discriminate|]). constructor.
  - intros p H. cbn in H. intuition (subst; reflexivity).
Qed.
Definition ex_ops : cops (hc val) := cube_ops std_dom std_all ex_reg.
Definition ex_alg := std_alg ex_reg ex_reg_ok.
(** Connections between peers, over TCP with a range of destination ports. *)
Definition tcp_conns (s d : option peerset) (ports : option (Z * Z)) : hc val :=
  let c := rect_cube std_dom ex_reg s d (Some true) in
  make_props (val_ops std_dom) (dim_empty std_dom) std_all
    (match ports with Some (a, b) => ccube_set c 4 (VI [Ivl a b]) | None => c end).
(** A connection: peers, protocol, destination port; the rest arbitrary. *)
Definition idx (p : peer) : Z := match peer_index ex_reg p with Some j => (min_pod_index + j)%Z | None => 0%Z end.
Definition ex_conn (s d : Z) (proto port : Z) : dim -> Z :=
  fun e => match e with 0 => s | 1 => d | 2 => proto | 3 => 1000%Z | 4 => port | _ => 0%Z end.
