(** * Model of the peer classes of /repo/nca/CoreDS/Peer.py: IPNetworkAddress, IpBlock, PeerSet, BasePeerSet.

    An IP address (IPNetworkAddress, Peer.py:193-266) is represented by its position in the
    total order of the class (all IPv4 addresses, then all IPv6 addresses, Peer.py:210-236): IPv4 address n
    has position n, IPv6 address n has position [v6min + n].  Positions in between do not exist.
    [ip_inc] / [ip_dec] are __add__(1) / __sub__(1) (Peer.py:238-254): out-of-range results are
    caught and leave the address unchanged.  IpBlock objects are lists of intervals as in IntervalModel.v. *)
From Coq Require Import ZArith List Bool String.
From Verif Require Import IntervalModel PortProtoModel.
Import ListNotations.
Local Open Scope Z_scope.

Definition v4max : Z := 2 ^ 32 - 1.
Definition v6min : Z := 2 ^ 33.
Definition v6max : Z := v6min + 2 ^ 128 - 1.

(** IPNetworkAddress.__add__ / __sub__, Peer.py:238-254, for the constant 1. *)
Definition ip_inc (x : Z) : Z := if (x =? v4max) || (x =? v6max) then x else x + 1.
Definition ip_dec (x : Z) : Z := if (x =? 0) || (x =? v6min) then x else x - 1.

(** An address: family and number. *)
Record addr := Addr { is6 : bool; num : Z }.
Definition width (six : bool) : Z := if six then 128 else 32.
Definition pos (a : addr) : Z := if is6 a then v6min + num a else num a.

(** ipaddress.ip_network(cidr, strict=False): an address and a prefix length. *)
Record cidr := Cidr { c6 : bool; cnum : Z; cprefix : Z }.
(** network_address and broadcast_address as an interval of addresses: the host bits are
    cleared / set.  Used at Peer.py:381-383, 386-389, 393-395. *)
Definition cidr_ivl (c : cidr) : ivl :=
  let block := 2 ^ (width (c6 c) - cprefix c) in
  let first := cnum c - cnum c mod block in
  Ivl (pos (Addr (c6 c) first)) (pos (Addr (c6 c) (first + block - 1))).

(** IpBlock inherits the interval-set operations, with IPNetworkAddress bounds. *)
Definition ipb_add_interval := g_add_interval ip_inc ip_dec.
Definition ipb_add_hole := g_add_hole ip_inc ip_dec.
Definition ipb_or := g_or ip_inc ip_dec.
Definition ipb_sub := g_sub ip_inc ip_dec.
Definition ipb_and := iset_and.
Definition ipb_contained_in := g_contained_in ip_dec.

(** add_cidr, Peer.py:380-390.  subnet_of only raises (TypeError) when the families differ;
    its result is ignored (line 387). *)
Definition add_cidr (l : iset) (c : cidr) (exceptions : list cidr) : option iset :=
  fold_left (fun acc e => bind acc (fun l' =>
               if Bool.eqb (c6 e) (c6 c) then Some (ipb_add_hole l' (cidr_ivl e)) else None))
            exceptions (ipb_add_interval l (cidr_ivl c)).
(** remove_cidr, Peer.py:392-396. *)
Definition remove_cidr (l : iset) (c : cidr) : iset := ipb_add_hole l (cidr_ivl c).
(** get_all_ips_block, Peer.py:334-347 ([None]: failed assertion). *)
Definition get_all_ips_block (exclude_ipv6 exclude_ipv4 : bool) : option iset :=
  if exclude_ipv6 && exclude_ipv4 then None
  else bind (if exclude_ipv4 then Some [] else add_cidr [] (Cidr false 0 0) []) (fun l =>
       if exclude_ipv6 then Some l else add_cidr l (Cidr true 0 0) []).
(** split, Peer.py:360-368. *)
Definition ipb_split (l : iset) : list iset := map (fun i => [i]) l.
(** ip_count, Peer.py:370-378. *)
Definition ip_count (l : iset) : Z := fold_left (fun res i => res + (hi i - lo i + 1)) l 0.
(** is_ipv4_block, Peer.py:427-439. *)
Definition is_ipv4_block (l : iset) : bool :=
  Nat.eqb (fold_left (fun cnt i => if lo i <=? v4max then S cnt else cnt) l O) (List.length l).

(** _add_interval_to_list, Peer.py:405-425: the loop over the existing blocks returns the updated
    blocks, the rest of [interval] and the pieces [to_add]. *)
Fixpoint ail_loop (interval : iset) (blocks : list iset) : list iset * iset * list iset :=
  match blocks with
  | [] => ([], interval, [])
  | b :: rest =>
    if negb (iset_overlaps b interval) then
      match ail_loop interval rest with (bs, iv, ta) => (b :: bs, iv, ta) end
    else
      let inter := ipb_and b interval in
      let interval' := ipb_sub interval inter in
      let changed := negb (iset_eqb b inter) in
      let b' := if changed then ipb_sub b inter else b in
      if negb (iset_bool interval') then (b' :: rest, interval', if changed then [inter] else [])
      else match ail_loop interval' rest with
             (bs, iv, ta) => (b' :: bs, iv, if changed then inter :: ta else ta)
           end
  end.
Definition add_interval_to_list (interval : iset) (blocks : list iset) : list iset :=
  match ail_loop interval blocks with (bs, iv, ta) => bs ++ ipb_split iv ++ ta end.

(** ** PeerSet *)
(** A peer: a non-IpBlock peer (pod, host endpoint, DNS entry), identified by its kind and full name
    (__eq__, Peer.py:69-72, 494-497), or an IpBlock (equality of interval lists). *)
Inductive peer := Named (kind : nat) (name : string) | Block (l : iset).
Definition peer_eqb (p q : peer) : bool :=
  match p, q with
  | Named k n, Named k' n' => Nat.eqb k k' && String.eqb n n'
  | Block l, Block m => iset_eqb l m
  | _, _ => false
  end.
Definition kind_dns : nat := 2.   (* DNSEntry; 0 = Pod, 1 = HostEP *)

(** A PeerSet is a Python set: a list without repetition; the order is not specified. *)
Definition peerset := list peer.
Definition pmem (p : peer) (s : peerset) : bool := existsb (peer_eqb p) s.
Definition padd (p : peer) (s : peerset) : peerset := if pmem p s then s else s ++ [p].
Definition is_block (p : peer) : bool := match p with Block _ => true | _ => false end.
(** get_set_without_ip_block, Peer.py:637-641. *)
Definition without_ip_block (s : peerset) : peerset := filter (fun p => negb (is_block p)) s.
(** get_set_without_ip_block_or_dns_entry / get_dns_entries, Peer.py:643-653. *)
Definition is_dns (p : peer) : bool := match p with Named k _ => Nat.eqb k kind_dns | _ => false end.
Definition without_ip_block_or_dns (s : peerset) : peerset := filter (fun p => negb (is_block p) && negb (is_dns p)) s.
Definition get_dns_entries (s : peerset) : peerset := filter is_dns s.
(** get_ip_block_canonical_form, Peer.py:655-663. *)
Definition ip_block_canonical (s : peerset) : option iset :=
  fold_left (fun acc p => match p with Block l => bind acc (fun r => ipb_or r l) | _ => acc end) s (Some []).
(** IpBlock.get_peer_set, Peer.py:398-402. *)
Definition block_peer_set (l : iset) : peerset := if iset_bool l then [Block l] else [].
(** Python set.__or__: PeerSet.__or__, Peer.py:599-601 (and __ior__, 593-597). *)
Definition ps_union (s t : peerset) : peerset := fold_left (fun r p => padd p r) t s.
(** __iand__ / __and__, Peer.py:576-591. *)
Definition ps_inter (s t : peerset) : option peerset :=
  bind (ip_block_canonical s) (fun a => bind (ip_block_canonical t) (fun b =>
    Some (ps_union (filter (fun p => pmem p (without_ip_block t)) (without_ip_block s)) (block_peer_set (ipb_and a b))))).
(** __isub__ / __sub__, Peer.py:603-618. *)
Definition ps_diff (s t : peerset) : option peerset :=
  bind (ip_block_canonical s) (fun a => bind (ip_block_canonical t) (fun b =>
    Some (ps_union (filter (fun p => negb (pmem p (without_ip_block t))) (without_ip_block s)) (block_peer_set (ipb_sub a b))))).
(** __eq__, Peer.py:557-564. *)
Definition ps_equal (s t : peerset) : option bool :=
  if negb (forallb (fun p => pmem p (without_ip_block t)) (without_ip_block s) &&
           forallb (fun p => pmem p (without_ip_block s)) (without_ip_block t)) then Some false
  else bind (ip_block_canonical s) (fun a => bind (ip_block_canonical t) (fun b => Some (iset_eqb a b))).
(** __contains__, Peer.py:532-538. *)
Definition ps_contains (item : peer) (s : peerset) : option bool :=
  match item with
  | Block l => fold_left (fun acc p => bind acc (fun r : bool => if r then Some true else
                 match p with Block m => ipb_contained_in l m | _ => Some false end)) s (Some false)
  | _ => Some (pmem item s)
  end.
(** canonical_form, Peer.py:540-542. *)
Definition ps_canonical (s : peerset) : option peerset :=
  bind (ip_block_canonical s) (fun a => Some (ps_union (without_ip_block s) (block_peer_set a))).
(** split, Peer.py:544-555. *)
Definition ps_split (s : peerset) : peerset :=
  fold_left (fun r p => match p with Block l => ps_union r (map Block (ipb_split l)) | _ => padd p r end) s [].
(** filter_ip_blocks_by_mask, Peer.py:665-685. *)
Definition ps_filter_mask (s : peerset) (mask : iset) : option peerset :=
  bind (mapM (fun p => match p with
                       | Block l => bind (ipb_contained_in l mask) (fun c => Some (p, negb c))
                       | _ => Some (p, false)
                       end) s) (fun fl =>
    let kept := map fst (filter (fun q => negb (snd q)) fl) in
    let removed := map fst (filter snd fl) in
    Some (fold_left (fun r p => match p with
                                | Block l => if iset_overlaps l mask then padd (Block (ipb_and l mask)) r else r
                                | _ => r end) removed kept)).

(** ** BasePeerSet, Peer.py:697-812 *)
Definition max_num_of_pods : Z := 10000.
Definition gap_width : Z := 5.
Definition min_ipv4_index : Z := 0.
Definition max_ipv4_index : Z := min_ipv4_index + (2 ^ 32 - 1).
Definition min_ipv6_index : Z := max_ipv4_index + gap_width.
Definition max_ipv6_index : Z := min_ipv6_index + (2 ^ 128 - 1).
Definition min_pod_index : Z := max_ipv6_index + gap_width.
Definition max_pod_index : Z := min_pod_index + max_num_of_pods - 1.

(** ordered_peer_list; peer_to_index maps each element to its position.
    add_peer, Peer.py:721-729 ([None]: the assertion on the number of pods failed). *)
Definition add_peer (reg : list peer) (p : peer) : option (list peer) :=
  if negb (is_block p) && negb (pmem p reg) then
    if Z.of_nat (List.length reg) <? max_num_of_pods then Some (reg ++ [p]) else None
  else Some reg.
Fixpoint peer_index (reg : list peer) (p : peer) : option Z :=
  match reg with
  | [] => None
  | q :: t => if peer_eqb p q then Some 0 else option_map Z.succ (peer_index t p)
  end.

(** The index interval of a range of addresses, Peer.py:740-747. *)
Definition range_index (i : ivl) : ivl :=
  if lo i <=? v4max then Ivl (min_ipv4_index + lo i) (min_ipv4_index + hi i)
  else Ivl (min_ipv6_index + (lo i - v6min)) (min_ipv6_index + (hi i - v6min)).
(** get_peer_interval_of, Peer.py:731-754 ([None]: a peer is not registered). *)
Definition peer_interval_of (reg : list peer) (s : peerset) : option iset :=
  fold_left (fun acc p => bind acc (fun res =>
    match p with
    | Block l => fold_left (fun acc' i => bind acc' (fun r => add_interval r (range_index i))) l (Some res)
    | _ => bind (peer_index reg p) (fun k => add_interval res (Ivl (min_pod_index + k) (min_pod_index + k)))
    end)) s (Some []).

(** IPv4Address(n) / IPv6Address(n) as a position ([None]: AddressValueError). *)
Definition mk_addr (six : bool) (n : Z) : option Z :=
  if (0 <=? n) && (n <? 2 ^ width six) then Some (pos (Addr six n)) else None.
(** get_peer_set_by_indices, Peer.py:756-787.  [None]: an exception (out-of-range address, failed
    assertion, IndexError). *)
Definition indices_step (reg : list peer) (acc : option (peerset * iset * iset)) (i : ivl) : option (peerset * iset * iset) :=
  bind acc (fun st => match st with (ps, b4, b6) =>
    if hi i <=? max_ipv4_index then
      bind (mk_addr false (lo i - min_ipv4_index)) (fun a => bind (mk_addr false (hi i - min_ipv4_index)) (fun b =>
        bind (ipb_add_interval b4 (Ivl a b)) (fun r => Some (ps, r, b6))))
    else if hi i <=? max_ipv6_index then
      bind (mk_addr true (lo i - min_ipv6_index)) (fun a => bind (mk_addr true (hi i - min_ipv6_index)) (fun b =>
        bind (ipb_add_interval b6 (Ivl a b)) (fun r => Some (ps, b4, r))))
    else if negb (hi i <=? max_pod_index) then None
    else
      let cur := Z.of_nat (List.length reg) - 1 in
      bind (mapM (py_nth reg) (zrange (Z.min (lo i - min_pod_index) cur) (Z.min (hi i - min_pod_index) cur))) (fun l =>
        Some (fold_left (fun r p => padd p r) l ps, b4, b6))
  end).
Definition peer_set_by_indices (reg : list peer) (l : iset) : option peerset :=
  bind (fold_left (indices_step reg) l (Some ([], [], []))) (fun st => match st with (ps, b4, b6) =>
    let ps := if iset_bool b4 then padd (Block b4) ps else ps in
    Some (if iset_bool b6 then padd (Block b6) ps else ps) end).
(** get_all_peers_and_ip_blocks_interval, Peer.py:803-811. *)
Definition all_peers_interval : option iset :=
  bind (add_interval [] (Ivl min_ipv4_index max_ipv4_index)) (fun a =>
  bind (add_interval a (Ivl min_ipv6_index max_ipv6_index)) (fun b =>
  add_interval b (Ivl min_pod_index max_pod_index))).
