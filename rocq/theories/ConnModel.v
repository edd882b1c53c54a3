(** * Model of ConnectivityProperties operations built on top of cube sets
    (/repo/nca/CoreDS/ConnectivityProperties.py, ConnectivityCube.py).

    Dimensions are numbers; [all] is all_dimensions_list.  Values of a dimension are of the
    abstract type [V] of HyperModel.v (the internal format; the translation between peer sets
    and intervals of indices is modelled in PeerModel.v). *)
From Coq Require Import List Bool Arith String.
From Verif Require Import HyperModel PortProtoModel.
Import ListNotations.
Local Open Scope list_scope.
Local Open Scope nat_scope.

Section Conn.
Context {V P : Type} (O : vops V P).
Notation hc := (hc V).
(** get_empty_dimension_by_name, DimensionsManager.py:126-133: the "empty" value of a dimension
    (for hosts and paths the code uses dfa_from_regex(""), i.e. the language {""}). *)
Context (vempty : dim -> V).

(** The value of dimension [d] in a cube given with its dimensions; the whole domain when
    [d] is not listed: get_connectivity_cube, ConnectivityProperties.py:96-109
    (a ConnectivityCube starts with full domains, ConnectivityCube.py:31-35). *)
Definition cube_at (ds : list dim) (k : list V) (d : dim) : V :=
  match find (fun q => Nat.eqb (fst q) d) (combine ds k) with Some (_, v) => v | None => vdom O d end.

(** project_on_one_dimension, ConnectivityProperties.py:227-254.  Simplified: the result is kept in
    the internal format.  The two ICMP dimensions are excluded by an assertion (line 235). *)
Definition project (all : list dim) (h : hc) (d : dim) : V :=
  if negb (mem_dim d (act_of h)) then vdom O d
  else fold_left (fun res k =>
         let v := cube_at (act_of h) k d in
         if vbool O v && vbool O res then vor O res v
         else if vbool O v then v else res)
       (iter_cubes O all h) (vempty d).

(** list.index of Python; [None] is ValueError. *)
Fixpoint index_of (l : list dim) (d : dim) : option nat :=
  match l with
  | [] => None
  | x :: t => if Nat.eqb x d then Some 0 else option_map S (index_of t d)
  end.

Fixpoint seqM {A} (l : list (option A)) : option (list A) :=
  match l with
  | [] => Some []
  | o :: t => match o, seqM t with Some x, Some r => Some (x :: r) | _, _ => None end
  end.

(** _reorder_list_by_map, ConnectivityProperties.py:455-466; [None] is IndexError. *)
Definition reorder_list {A} (l : list A) (m : list nat) : option (list A) :=
  seqM (map (fun i => match nth_error m i with Some j => nth_error l j | None => None end) (seq 0 (List.length l))).

(** _reorder_by_dim_list, ConnectivityProperties.py:433-453.  The result also carries the new
    all_dimensions_list.  [None]: an IndexError/ValueError was raised. *)
Definition reorder_by (all : list dim) (h : hc) (m : list nat) : option (list dim * hc) :=
  match reorder_list all m with
  | None => None
  | Some na =>
    let nact := by_order na (act_of h) in
    match seqM (map (index_of (act_of h)) nact) with
    | None => None
    | Some idx =>
      let amap := idx ++ skipn (List.length idx) (seq 0 (List.length (act_of h))) in
      match seqM (map (fun k => reorder_list k amap) (iter_cubes O all h)) with
      | None => None
      | Some ks => Some (na, fold_left (fun r k => add_cube O na r (combine nact k)) ks (hempty Conn na))
      end
    end
  end.

Definition list_set {A} (l : list A) (i : nat) (x : A) : list A := firstn i l ++ x :: skipn (S i) l.

(** reorder_by_switching_src_dst_peers, ConnectivityProperties.py:421-431. *)
Definition reorder_switch (all : list dim) (h : hc) (src dst : dim) : option (list dim * hc) :=
  match index_of all src, index_of all dst with
  | Some i, Some j => reorder_by all h (list_set (list_set (seq 0 (List.length all)) i j) j i)
  | _, _ => None
  end.

(** minimize, ConnectivityProperties.py:414-419. *)
Definition minimize (all : list dim) (h : hc) (src dst : dim) : option (list dim * hc) :=
  match reorder_switch all h src dst with
  | None => None
  | Some (na, h') => if hlen h <=? hlen h' then Some (all, h) else Some (na, h')
  end.

(** ConnectivityCube: a value for every dimension of the list.
    is_empty, ConnectivityCube.py:170-180 (without named ports). *)
Definition ccube_is_empty (all : list dim) (c : dim -> V) : bool :=
  existsb (fun d => veqb O (c d) (vempty d)) all.
(** get_ordered_cube_and_active_dims, ConnectivityCube.py:182-199. *)
Definition ccube_ordered (all : list dim) (c : dim -> V) : list (dim * V) :=
  map (fun d => (d, c d)) (filter (fun d => negb (veqb O (c d) (vdom O d))) all).
(** _make_conn_props_no_named_ports_resolution, ConnectivityProperties.py:50-73. *)
Definition make_props (all : list dim) (c : dim -> V) : hc :=
  if ccube_is_empty all c then hempty Conn all
  else match ccube_ordered all c with
       | [] => hall Conn
       | cube => add_cube O all (hempty Conn all) cube
       end.

(** A cube dictionary over the full domains: make_from_dict, ConnectivityCube.py:201-205. *)
Definition ccube_full : dim -> V := fun d => vdom O d.
Definition ccube_set (c : dim -> V) (d : dim) (v : V) : dim -> V := fun e => if Nat.eqb e d then v else c e.

(** are_auto_conns, ConnectivityProperties.py:376-394; [single] is CanonicalIntervalSet.is_single_value. *)
Definition are_auto_conns (single : V -> bool) (all : list dim) (h : hc) (src dst : dim) : bool :=
  if negb (mem_dim src (act_of h) && mem_dim dst (act_of h)) then false
  else forallb (fun k => let s := cube_at (act_of h) k src in
                         let t := cube_at (act_of h) k dst in
                         veqb O s t && single s) (iter_cubes O all h).

(** get_auto_conns_from_peers / props_without_auto_conns, ConnectivityProperties.py:396-412.
    [peers] translates the internal value get_all_peers (line 370-374, union of the two projections)
    into the values {peer} of its members. *)
Definition auto_conns (peers : V -> list V) (all : list dim) (h : hc) (src dst : dim) : hc :=
  fold_left (fun r v => h_or O all r (make_props all (ccube_set (ccube_set ccube_full src v) dst v)))
            (peers (vor O (project all h src) (project all h dst))) (hempty Conn all).
Definition without_auto (peers : V -> list V) (all : list dim) (h : hc) (src dst : dim) : hc :=
  h_sub O all h (auto_conns peers all h src dst).

(** A destination peer: the value of its singleton and its named ports
    (Peer.get_named_ports, Peer.py:55-57, 94-99; only pods have any). *)
Record peerinfo := PeerInfo { pv : V; pports : list (string * (P * P)) }.

(** _resolve_named_ports, ConnectivityProperties.py:256-271 (the list of numbers put in the PortSet;
    warnings and used_named_ports are not modelled). *)
Definition resolve_named (names : list string) (peer : peerinfo) (protocols : V) : list P :=
  flat_map (fun nm => match assoc_s nm (pports peer) with
                      | Some (n, proto) => if vin O proto protocols then [n] else []
                      | None => []
                      end) names.

(** One round of the loop of make_conn_props, ConnectivityProperties.py:309-319. *)
Definition named_step (vset : list P -> V) (dports dpeers : dim) (all : list dim) (c : dim -> V)
    (named excl : list string) (protocols : V) (h : hc) (peer : peerinfo) : hc :=
  let cube ports := make_props all (ccube_set (ccube_set c dports (vset ports)) dpeers (pv peer)) in
  let h1 := match resolve_named named peer protocols with [] => h | real => h_or O all h (cube real) end in
  match resolve_named excl peer protocols with [] => h1 | real => h_sub O all h1 (cube real) end.

(** make_conn_props, ConnectivityProperties.py:273-324.  [vset] builds the value {n1, ..., nk} of the
    dst_ports dimension; [peers] lists the peers of a dst_peers value.  The caller's cube is also
    overwritten by the code (lines 302, 314, 319); this side effect is not modelled. *)
Definition make_conn_props (vset : list P -> V) (peers : V -> list peerinfo) (dports dpeers dprotos : dim)
    (all : list dim) (c : dim -> V) (named excl : list string) : hc :=
  match named, excl with
  | [], [] => make_props all c
  | _, _ =>
    let h0 := if vbool O (c dports) then make_props all c else hempty Conn all in
    fold_left (named_step vset dports dpeers all c named excl (c dprotos)) (peers (c dpeers)) h0
  end.
End Conn.
