(** * Model of the minimization of firewall rules: nca/FWRules/ClusterInfo.py, MinimizeCsFWRules.py, MinimizeFWRules.py and the
    elements of FWRule.py.

    Python sets (of namespaces, peers, rules) are lists, their order is not specified; a set used as the key of a dictionary is
    compared as a set.  The result is the map from connections to rules; the texts of the rules are not modelled here.
    [None] is an exception (or, for [elements], a loop that does not end). *)
From Coq Require Import ZArith List Bool Arith String Ascii.
From Verif Require Import IntervalModel TextModel PortProtoModel PeerModel PolicyModel QueryModel YamlModel ClusterModel.
Import ListNotations.
Local Open Scope string_scope.
Local Open Scope list_scope.
Local Open Scope nat_scope.

(** Namespaces are compared by name (K8sNamespace.py:17-20); host endpoints and DNS entries have none. *)
Definition ns := option string.
Definition ns_eqb (a b : ns) : bool :=
  match a, b with Some x, Some y => String.eqb x y | None, None => true | _, _ => false end.
Definition nmem (n : ns) (l : list ns) : bool := existsb (ns_eqb n) l.
Definition nadd (n : ns) (l : list ns) : list ns := if nmem n l then l else l ++ [n].
Definition nset (l : list ns) : list ns := fold_left (fun r n => nadd n r) l [].
(** Equality of (frozen) sets. *)
Definition same_ns (l m : list ns) : bool := forallb (fun n => nmem n m) l && forallb (fun n => nmem n l) m.
Definition subset_of (s t : peerset) : bool := forallb (fun p => pmem p t) s.
Definition same_peers (s t : peerset) : bool := subset_of s t && subset_of t s.
(** Intersection and difference of sets of peers without IP blocks. *)
Definition common (s t : peerset) : peerset := filter (fun p => pmem p t) s.
Definition minus (s t : peerset) : peerset := filter (fun p => negb (pmem p t)) s.
(** d[k] = f(d.get(k, empty)) for a dictionary with the given equality of keys. *)
Fixpoint update {K V} (eqb : K -> K -> bool) (k : K) (empty : V) (f : V -> V) (d : list (K * V)) : list (K * V) :=
  match d with
  | [] => [(k, f empty)]
  | (k', v) :: t => if eqb k k' then (k', f v) :: t else (k', v) :: update eqb k empty f t
  end.

(** ** ClusterInfo *)
(** pods_labels_map, all_label_values_per_ns; missing keys have the value set() (defaultdict). *)
Definition lkey := (string * string)%type.
Definition lkey_eqb (a b : lkey) : bool := String.eqb (fst a) (fst b) && String.eqb (snd a) (snd b).
Definition lmap := list (lkey * peerset).
Definition vkey := (string * ns)%type.
Definition vkey_eqb (a b : vkey) : bool := String.eqb (fst a) (fst b) && ns_eqb (snd a) (snd b).
Definition lvals := list (vkey * list string).
Record cinfo := CInfo { ci_peers : peerset; ci_allowed : list string; ci_lmap : lmap; ci_lvals : lvals }.
Fixpoint lookup {K V} (eqb : K -> K -> bool) (k : K) (empty : V) (d : list (K * V)) : V :=
  match d with [] => empty | (k', v) :: t => if eqb k k' then v else lookup eqb k empty t end.
Definition sadd (v : string) (l : list string) : list string := if smem v l then l else l ++ [v].
Definition invalid_val : string := "#NO_LABEL_VALUE".

Section FW.
Context (cl : cluster).
(** ClusterInfo.__init__, ClusterInfo.py:41-51. *)
Definition lmap0 (pods : peerset) : lmap :=
  fold_left (fun m p => fold_left (fun m kv => update lkey_eqb kv [] (padd p) m) (cl_labels cl p) m) pods [].
Definition lvals0 (pods : peerset) : lvals :=
  fold_left (fun m p => fold_left (fun m kv => update vkey_eqb (fst kv, cl_ns cl p) [] (sadd (snd kv)) m) (cl_labels cl p) m) pods [].
(** _update_all_label_values_per_ns, ClusterInfo.py:101-116. *)
Definition add_value (k v : string) (pods : peerset) (m : lvals) : lvals :=
  fold_left (fun m n => update vkey_eqb (k, n) [] (sadd v) m) (nset (map (cl_ns cl) pods)) m.
(** _get_allowed_labels_flattened, ClusterInfo.py:137-149. *)
Definition flattened (allowed : list string) : list string :=
  fold_left (fun r k => fold_left (fun r x => sadd x r) (split ":" k) r) allowed [].
(** add_update_pods_labels_map_with_invalid_val, ClusterInfo.py:62-86. *)
Definition invalid_step (pods : peerset) (st : lmap * lvals) (k : string) : lmap * lvals :=
  let with_key := fold_left ps_union (map snd (filter (fun e => String.eqb (fst (fst e)) k) (fst st))) [] in
  let spaces := nset (map (cl_ns cl) with_key) in
  let without := filter (fun p => nmem (cl_ns cl p) spaces) (minus pods with_key) in
  (update lkey_eqb (k, invalid_val) [] (fun _ => without) (fst st), add_value k invalid_val without (snd st)).
Definition add_invalid (pods : peerset) (allowed : list string) (st : lmap * lvals) : lmap * lvals :=
  let keys := fold_left (fun r e => sadd (fst (fst e)) r) (fst st) [] in
  fold_left (invalid_step pods) (filter (fun k => smem k (flattened allowed)) keys) st.
(** get_values_set_for_key, ClusterInfo.py:118-125. *)
Definition values_of (k : string) (m : lmap) : list string :=
  fold_left (fun r e => if String.eqb (fst (fst e)) k then sadd (snd (fst e)) r else r) m [].
(** itertools.product. *)
Fixpoint product {X} (ls : list (list X)) : list (list X) :=
  match ls with [] => [[]] | l :: t => flat_map (fun x => map (cons x) (product t)) l end.
(** add_update_pods_labels_map_with_required_conjunction_labels, ClusterInfo.py:88-99. *)
Definition conj_value (k : string) (keys : list string) (st : lmap * lvals) (elem : list string) : lmap * lvals :=
  let sets := map (fun kv => lookup lkey_eqb kv [] (fst st)) (combine keys elem) in
  let pods := match sets with [] => [] | s :: t => fold_left common t s end in
  let v := String.concat ":" elem in
  match pods with
  | [] => st
  | _ => (update lkey_eqb (k, v) [] (fun _ => pods) (fst st), add_value k v pods (snd st))
  end.
Definition conj_step (st : lmap * lvals) (k : string) : lmap * lvals :=
  let keys := split ":" k in
  fold_left (conj_value k keys) (product (map (fun x => values_of x (fst st)) keys)) st.
Definition has_colon (k : string) : bool := existsb (Ascii.eqb ":") (list_ascii_of_string k).
Definition cluster_info (peers : peerset) (allowed : list string) : cinfo :=
  let pods := without_ip_block peers in
  let st := add_invalid pods allowed (lmap0 pods, lvals0 pods) in
  let st := fold_left conj_step (filter has_colon allowed) st in
  CInfo peers allowed (fst st) (snd st).

Context (ci : cinfo).
(** ns_dict, ClusterInfo.py:42-47. *)
Definition ns_pods (n : ns) : peerset := filter (fun p => negb (is_block p) && ns_eqb (cl_ns cl p) n) (ci_peers ci).
Definition pods_of_label (k v : string) : peerset := lookup lkey_eqb (k, v) [] (ci_lmap ci).
Definition values_in (k : string) (n : ns) : list string := lookup vkey_eqb (k, n) [] (ci_lvals ci).

(** ** The elements of rules, FWRule.py:135-560 *)
Inductive elem :=
| ENs (l : list ns)                              (* FWRuleElement *)
| ELabels (k : string) (vs : list string) (n : ns)   (* PodLabelsElement with ns_info = {n} *)
| EPeers (s : peerset)                           (* PeerSetElement *)
| EIp (l : iset)                                 (* IPBlockElement *)
| EDns (p : peer).                               (* DNSElement *)
(** get_peer_set: FWRule.py:201-214, 352-363, 427-437, 497-501, 548-556. *)
Definition elem_peers (e : elem) : peerset :=
  match e with
  | ENs l => fold_left (fun r n => ps_union r (ns_pods n)) l []
  | ELabels k vs n => fold_left (fun r v => ps_union r (common (pods_of_label k v) (ns_pods n))) vs []
  | EPeers s => s
  | EIp l => [Block l]
  | EDns p => [p]
  end.

(** ** Grouping of pods by labels *)
(** _get_pods_grouping_by_labels, MinimizeCsFWRules.py:413-475, with extra_pods_set = set() (line 286); [single] is the output option
    fwRulesGroupByLabelSinglePod. *)
Definition covered_values (pods : peerset) (n : ns) (k : string) : list string * peerset :=
  fold_left (fun r v =>
    let all := common (pods_of_label k v) (ns_pods n) in
    if pbool all && same_peers all (common all pods) && pbool (common all pods)
    then (sadd v (fst r), ps_union (snd r) (common all pods)) else r) (values_in k n) ([], []).
Definition label_options (single : bool) (pods : peerset) (n : ns) : list (string * (list string * peerset)) :=
  flat_map (fun k => let r := covered_values pods n k in
    if negb (match fst r with [] => true | _ => false end) && ((if single then 1 else 2) <=? List.length (snd r)) then [(k, r)] else [])
  (ci_allowed ci).
(** sorted(..., reverse=True): stable, the longest first. *)
Fixpoint insert_option (o : string * (list string * peerset)) (l : list (string * (list string * peerset))) :=
  match l with
  | [] => [o]
  | x :: t => if List.length (snd (snd o)) <? List.length (snd (snd x)) then x :: insert_option o t else o :: l
  end.
Definition sort_options (l : list (string * (list string * peerset))) := fold_right insert_option [] l.
Fixpoint choose (n : ns) (pods : peerset) (opts : list (string * (list string * peerset))) (remaining : peerset) : list elem * peerset :=
  match opts with
  | [] => ([], remaining)
  | (k, (vs, g)) :: t =>
    let taken := subset_of (common g pods) remaining in
    let remaining' := if taken then minus remaining g else remaining in
    let here := if taken then [ELabels k vs n] else [] in
    match remaining' with
    | [] => (here, [])
    | _ => let r := choose n pods t remaining' in (here ++ fst r, snd r)
    end
  end.
(** _create_fw_elements_by_pods_grouping_by_labels and _get_pods_grouping_by_labels_main, lines 279-294, 391-411; the pods are those of
    one namespace (line 380), hence the main function runs for one namespace. *)
Definition group_pods (single : bool) (pods : peerset) (n : ns) : list elem :=
  let r := choose n pods (sort_options (label_options single pods n)) pods in
  fst r ++ match snd r with [] => [] | rest => [EPeers rest] end.
(** The loop [while pods] of _create_fw_elements_from_base_element, lines 378-382; it does not end if a pod is not in ns_dict. *)
Fixpoint group_loop (single : bool) (fuel : nat) (pods : peerset) : option (list elem) :=
  match pods with
  | [] => Some []
  | p :: _ =>
    match fuel with
    | 0 => None
    | S fuel =>
      let here := common pods (ns_pods (cl_ns cl p)) in
      bind (group_loop single fuel (minus pods here)) (fun r => Some (group_pods single here (cl_ns cl p) ++ r))
    end
  end.
(** _create_fw_elements_from_base_element, lines 357-389, for the base elements that occur: PeerSet and frozenset of namespaces. *)
Inductive base := BPeers (s : peerset) | BNs (l : list ns).
Definition elements (single : bool) (b : base) : option (list elem) :=
  match b with
  | BNs l => Some [ENs l]
  | BPeers s =>
    let pods := without_ip_block_or_dns s in
    bind (ps_diff s pods) (fun rest => bind (group_loop single (List.length pods) pods) (fun r =>
      Some (r ++ map (fun p => match p with Block l => EIp l | _ => EDns p end) rest)))
  end.
(** _create_fw_rules_from_base_elements(_list), lines 296-307, 340-355. *)
Definition rules_of_pair (single : bool) (b : base * base) : option (list (elem * elem)) :=
  bind (elements single (fst b)) (fun l => bind (elements single (snd b)) (fun m =>
    Some (flat_map (fun x => map (fun y => (x, y)) m) l))).
Definition rules_of_pairs (single : bool) (l : list (base * base)) : option (list (elem * elem)) :=
  bind (mapM (rules_of_pair single) l) (fun r => Some (List.concat r)).

(** ** Rules for one connection set *)
Section Ops.
Context {C : Type} (A : cops C) (Q : qops C).
(** Further operations on ConnectivityProperties: the source and destination peers of the cubes of an object ([for cube in props], then
    conn_cube["src_peers"], conn_cube["dst_peers"]); the same after reorder_by_switching_src_dst_peers and after minimize; the projections
    on the two peer dimensions; and the split of every cube into its peers and its other dimensions (MinimizeFWRules.py:143-148 with
    extract_src_dst_peers_from_cube, ConnectivityProperties.py:469-489, and unset_all_but_peers, ConnectivityCube.py:123-126). *)
Record fops := FOps {
  f_cubes : C -> option (list (peerset * peerset));
  f_switched : C -> option (list (peerset * peerset));
  f_minimized : C -> option (list (peerset * peerset));
  f_side : bool -> C -> peerset;
  f_split : option bool -> C -> list (C * C)
}.
Context (F : fops) (single : bool).
Definition rect (s d : peerset) : C := c_rect A (Some s) (Some d) None.
(** The rectangle whose dimension dim_name is [s]. *)
Definition rect_at (src : bool) (s other : peerset) : C := if src then rect s other else rect other s.
Definition is_cluster_ep (p : peer) : bool := match p with Named k _ => k <? 2 | Block _ => false end.
Definition is_pod (p : peer) : bool := match p with Named k _ => Nat.eqb k 0 | Block _ => false end.

(** _compute_covered_peer_props, MinimizeCsFWRules.py:119-134. *)
Definition covered_props (pp containing : C) : C :=
  let cov := c_or A pp containing in
  let all := q_peers Q pp in
  if List.length all <? 500
  then fold_left (fun c p => if is_cluster_ep p then c_or A c (rect [p] [p]) else c) all cov
  else cov.

(** The loops of _compute_full_ns_grouping, lines 145-158: covered_peer_props, peer_props_without_ns_expr and the pairs found. *)
Definition full_step (pp : C) (st : C * C * list (ns * ns)) (sd : ns * ns) : C * C * list (ns * ns) :=
  match st with (cov, rest, found) =>
    let prod := rect (ns_pods (fst sd)) (ns_pods (snd sd)) in
    if c_cont A prod cov
    then (c_sub A cov prod, rest, if c_bool A (c_and A prod pp) then found ++ [sd] else found)
    else (cov, c_or A rest (c_and A prod pp), found)
  end.
(** Lines 159-171. *)
Definition group_by {X} (key : X -> list ns) (val : X -> ns) (l : list X) : list (list ns * list ns) :=
  fold_left (fun d x => update same_ns (key x) [] (nadd (val x)) d) l [].
Definition final_pairs (found : list (ns * ns)) : list (list ns * list ns) :=
  let srcs := nset (map fst found) in
  let dsts := nset (map snd found) in
  let of_src s := nset (map snd (filter (fun p => ns_eqb (fst p) s) found)) in
  let of_dst d := nset (map fst (filter (fun p => ns_eqb (snd p) d) found)) in
  let by_dsts := group_by of_src (fun s => s) srcs in
  let by_srcs := group_by of_dst (fun d => d) dsts in
  if List.length by_dsts <=? List.length by_srcs then map (fun g => (snd g, fst g)) by_dsts else by_srcs.

Definition state := (C * list (base * base))%type.   (* peer_props_without_ns_expr, base_elem_pairs *)
Definition pair_at (src : bool) (b other : base) : base * base := if src then (b, other) else (other, b).
(** _compute_partial_ns_grouping, lines 178-228. *)
Definition cubes_of_dim (src : bool) (cov : C) : option (list (peerset * peerset)) :=
  bind (if src then f_switched F cov else f_cubes F cov) (fun l =>
    mapM (fun k => let dim := if src then fst k else snd k in
                   bind (ps_canonical (if src then snd k else fst k)) (fun other => Some (dim, other))) l).
Definition partial_map (src : bool) (spaces : list ns) (rest : C) (ks : list (peerset * peerset)) : list (list ns * peerset) :=
  fold_left (fun d k =>
    let curr := filter (fun n => subset_of (ns_pods n) (fst k) && c_bool A (c_and A (rect_at src (ns_pods n) (snd k)) rest)) spaces in
    match curr with [] => d | _ => update same_ns curr [] (fun s => ps_union s (snd k)) d end) ks [].
Definition subtract_if (src : bool) (spaces : list ns) (peers other : peerset) (st : state) : state :=
  let updated := c_sub A (fst st) (rect_at src peers other) in
  if c_eqb A (fst st) updated then st else (updated, snd st ++ [pair_at src (BNs spaces) (BPeers other)]).
Definition partial_step (src : bool) (st : state) (g : list ns * peerset) : option state :=
  let peers := fold_left (fun r n => ps_union r (ns_pods n)) (fst g) [] in
  bind (ip_block_canonical (snd g)) (fun ips =>
    Some (subtract_if src (fst g) peers (block_peer_set ips) (subtract_if src (fst g) peers (without_ip_block (snd g)) st))).
Definition partial_grouping (src : bool) (spaces : list ns) (cov : C) (st : state) : option state :=
  bind (cubes_of_dim src cov) (fun ks => fold_left (fun acc g => bind acc (fun st => partial_step src st g)) (partial_map src spaces (fst st) ks) (Some st)).
(** is_full_ipblock, lines 173-176. *)
Definition is_full (l : iset) : bool :=
  let eq o := match o with Some m => iset_eqb l m | None => false end in
  eq (get_all_ips_block false false) || eq (get_all_ips_block true false) || eq (get_all_ips_block false true).
(** _add_to_map_if_covered, lines 264-277. *)
Definition add_if_covered (src : bool) (rest : C) (dim other : peerset) (d : list (peerset * peerset)) : list (peerset * peerset) :=
  if c_bool A (c_and A (rect_at src dim other) rest) then update same_peers dim [] (fun s => ps_union s other) d else d.
(** _compute_full_ipblock_and_dns_grouping, lines 230-262. *)
Definition outside_map_step (src : bool) (rest : C) (acc : option (list (peerset * peerset))) (k : peerset * peerset) : option (list (peerset * peerset)) :=
  bind acc (fun d => bind (ip_block_canonical (fst k)) (fun ips =>
    let d := if is_full ips then add_if_covered src rest (block_peer_set ips) (snd k) d else d in
    Some (fold_left (fun d p => add_if_covered src rest [p] (snd k) d) (get_dns_entries (fst k)) d))).
Definition outside_step (src : bool) (st : state) (g : peerset * peerset) : state :=
  (c_sub A (fst st) (rect_at src (fst g) (snd g)), snd st ++ [pair_at src (BPeers (fst g)) (BPeers (snd g))]).
Definition outside_grouping (src : bool) (cov : C) (st : state) : option state :=
  bind (cubes_of_dim src cov) (fun ks => bind (fold_left (outside_map_step src (fst st)) ks (Some [])) (fun d =>
    Some (fold_left (outside_step src) d st))).
Definition if_any (f : state -> option state) (st : state) : option state := if c_bool A (fst st) then f st else Some st.
(** _compute_basic_grouping, lines 88-117: the pairs of namespace sets, the remaining connections and the base pairs. *)
Definition basic_grouping (pp containing : C) : option (list (list ns * list ns) * state) :=
  let cov := covered_props pp containing in
  let spaces b := nset (map (cl_ns cl) (filter is_pod (f_side F b cov))) in
  let pairs := flat_map (fun s => map (fun d => (s, d)) (spaces false)) (spaces true) in
  match fold_left (full_step pp) pairs (cov, c_empty A, []) with (cov, rest, found) =>
    let no_ns b := filter (fun p => negb (is_pod p)) (f_side F b pp) in
    let outside := c_or A (c_rect A (Some (no_ns true)) None None) (c_rect A None (Some (no_ns false)) None) in
    let rest := c_or A rest (c_and A outside pp) in
    bind (partial_grouping false (spaces false) cov (rest, [])) (fun st =>
    bind (if_any (partial_grouping true (spaces true) cov) st) (fun st =>
    bind (if_any (outside_grouping false cov) st) (fun st =>
    bind (if_any (outside_grouping true cov) st) (fun st => Some (final_pairs found, st)))))
  end.
(** _create_fw_rules_from_peer_props and its auxiliary function, lines 309-338 (the assertion of line 335 included). *)
Definition rules_of_cubes (o : option (list (peerset * peerset))) : option (list (elem * elem)) :=
  bind o (fun ks => if forallb (fun k => pbool (fst k) && pbool (snd k)) ks
                    then rules_of_pairs single (map (fun k => (BPeers (fst k), BPeers (snd k))) ks) else None).
Definition rules_of_props (x : C) : option (list (elem * elem)) :=
  let s := c_and A (c_rect A (Some all_ips_set) None None) x in
  let x1 := if c_bool A s then c_sub A x s else x in
  let d := c_and A (c_rect A None (Some all_ips_set) None) x1 in
  let x2 := if c_bool A d then c_sub A x1 d else x1 in
  bind (if c_bool A s then rules_of_cubes (f_switched F s) else Some []) (fun r1 =>
  bind (if c_bool A d then rules_of_cubes (f_cubes F d) else Some []) (fun r2 =>
  bind (if c_bool A x2 then rules_of_cubes (f_minimized F x2) else Some []) (fun r3 => Some (r1 ++ r2 ++ r3)))).
(** _create_fw_rules, lines 75-86. *)
Definition cs_rules (pp containing : C) : option (list (elem * elem)) :=
  bind (basic_grouping pp containing) (fun g =>
  bind (rules_of_pairs single (map (fun p => (BNs (fst p), BNs (snd p))) (fst g))) (fun r1 =>
  bind (rules_of_props (fst (snd g))) (fun r2 =>
  bind (rules_of_pairs single (snd (snd g))) (fun r3 => Some (r1 ++ r2 ++ r3))))).

(** ** All rules, MinimizeFWRules.py:131-206 *)
(** The list is not sorted (line 154): the order of the rules does not matter here. *)
Definition peers_to_props (cubes : list (C * C)) : list (C * C) :=
  fold_left (fun d k => update (c_eqb A) (fst k) (c_empty A) (fun x => c_or A x (snd k)) d) cubes [].
Definition props_to_peers (d : list (C * C)) : list (C * C) :=
  fold_left (fun d k => update (c_eqb A) (snd k) (c_empty A) (fun x => c_or A x (fst k)) d) d [].
(** _build_props_containment_map. *)
Definition containing_peers (all : list (C * C)) (props : C) : C :=
  fold_left (fun acc o => if negb (c_eqb A (fst o) props) && c_cont A props (fst o) then c_or A acc (snd o) else acc) all (c_empty A).
(** fw_rules_map; [restr]: no connectivity restriction, TCP ([Some true]) or non-TCP. *)
Definition minimized_rules (restr : option bool) (h : C) : option (list (C * list (elem * elem))) :=
  let all := props_to_peers (peers_to_props (f_split F restr h)) in
  bind (mapM (fun e => if c_bool A (fst e) then bind (cs_rules (snd e) (containing_peers all (fst e))) (fun r => Some [(fst e, r)]) else Some []) all)
       (fun r => Some (List.concat r)).
End Ops.
End FW.
Arguments FOps {C}. Arguments f_cubes {C}. Arguments f_switched {C}. Arguments f_minimized {C}. Arguments f_side {C}. Arguments f_split {C}.
