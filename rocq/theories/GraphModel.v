(** * Model of the connectivity graph: nca/FWRules/ConnectivityGraph.py and the nodes and edges of DotGraph.py.

    Python sets are lists here, their order is not specified.  [None] is an exception (KeyError).  The graph is modelled as its nodes and
    edges; the layout text (colours, legend) is not. *)
From Coq Require Import ZArith List Bool Arith String Ascii.
From Verif Require Import TextModel PortProtoModel.
Import ListNotations.
Local Open Scope string_scope.
Local Open Scope list_scope.
Local Open Scope nat_scope.

(** ** One connection set: cliques and bicliques *)
(** A node is the name of a peer and the name of its namespace ('' if it has none). *)
Definition gnode := (string * string)%type.
Definition gedge := (gnode * gnode)%type.
Definition gnode_eqb (a b : gnode) : bool := String.eqb (fst a) (fst b) && String.eqb (snd a) (snd b).
Definition gedge_eqb (a b : gedge) : bool := gnode_eqb (fst a) (fst b) && gnode_eqb (snd a) (snd b).
Definition emem (e : gedge) (l : list gedge) : bool := existsb (gedge_eqb e) l.
Definition nmem (n : gnode) (l : list gnode) : bool := existsb (gnode_eqb n) l.
Definition nodes_set (l : list gnode) : list gnode := fold_left (fun r n => if nmem n r then r else r ++ [n]) l [].
Definition ediff (l m : list gedge) : list gedge := filter (fun e => negb (emem e m)) l.
Definition flip (e : gedge) : gedge := (snd e, fst e).
Definition pairs_of {X Y} (l : list X) (m : list Y) : list (X * Y) := flat_map (fun x => map (fun y => (x, y)) m) l.
(** The order of strings and of tuples of strings. *)
Definition str_lt (a b : string) : bool := match String.compare a b with Lt => true | _ => false end.
Definition node_lt (a b : gnode) : bool := str_lt (fst a) (fst b) || (String.eqb (fst a) (fst b) && str_lt (snd a) (snd b)).
Definition str_nat (n : nat) : string := str_of_Z (Z.of_nat n).

(** reformat_graph, ConnectivityGraph.py:105-123. *)
Definition reformat (und dir : list gedge) (allow : bool) : list gedge * list gedge :=
  if allow then
    let und1 := filter (fun e => emem (flip e) dir) dir ++ und in
    (filter (fun e => node_lt (snd e) (fst e)) und1, ediff dir und1)
  else ([], dir ++ und ++ map flip und).

(** sorted(set(...)) of strings. *)
Fixpoint insert_str (s : string) (l : list string) : list string :=
  match l with
  | [] => [s]
  | x :: t => if String.eqb s x then l else if str_lt s x then s :: l else x :: insert_str s t
  end.
Definition sorted_set (l : list string) : list string := fold_right insert_str [] l.

(** networkx.clique.find_cliques, sorted (lines 149-155). *)
Definition finder := list gedge -> list (list gnode).
Section Clique.
Context (conn : string).
(** The body of the loop over the namespaces of a clique, lines 162-176: cliques_nodes, cliques_edges, clique_namespaces_nodes. *)
Definition ns_step (clique : list gnode) (st : list gnode * list gedge * list gnode) (n : string) : list gnode * list gedge * list gnode :=
  match st with (nodes, edges, reps) =>
    match filter (fun p => String.eqb (snd p) n) clique with
    | [] => st        (* not reached *)
    | [p] => (nodes, edges, reps ++ [p])
    | peers => let q := (("clique_" ++ str_nat (List.length nodes))%string, n) in
               (nodes ++ [q], edges ++ map (fun p => (q, p)) peers, reps ++ [q])
    end
  end.
(** Lines 178-186. *)
Definition join_reps (st : list gnode * list gedge * list gnode) : list gnode * list gedge :=
  match st with (nodes, edges, reps) =>
    match reps with
    | [a; b] => (nodes, edges ++ [(a, b)])
    | _ :: _ :: _ :: _ => let q := (("clique_" ++ conn ++ str_nat (List.length nodes))%string, "") in
                          (nodes ++ [q], edges ++ map (fun r => (r, q)) reps)
    | _ => (nodes, edges)
    end
  end.
(** One clique, lines 156-189: undirected_edges, cliques_edges, cliques_nodes. *)
Definition clique_step (st : list gedge * list gedge * list gnode) (clique : list gnode) : list gedge * list gedge * list gnode :=
  match st with (und, edges, nodes) =>
    if List.length clique <? 4 then st else
    let r := join_reps (fold_left (ns_step clique) (sorted_set (map snd clique)) (nodes, edges, [])) in
    (ediff und (pairs_of clique clique), snd r, fst r)
  end.
(** _creates_cliqued_graph, lines 125-190. *)
Definition cliqued (find : finder) (und : list gedge) : list gedge * list gedge * list gnode :=
  fold_left clique_step (find und) (und, [], []).

(** One round of the loop of _creates_bicliqued_graph, lines 214-228: the best biclique.  Equal sets of destinations are not merged (they
    give equal bicliques). *)
Definition dsts_of (dir : list gedge) (s : gnode) : list gnode := nodes_set (map snd (filter (fun e => gnode_eqb (fst e) s) dir)).
Definition rank_of (b : list gnode * list gnode) : Z :=
  (Z.of_nat (List.length (fst b)) * Z.of_nat (List.length (snd b)) - Z.of_nat (List.length (fst b)) - Z.of_nat (List.length (snd b)))%Z.
Definition bicliques (dir : list gedge) : list (list gnode * list gnode) :=
  let srcs := nodes_set (map fst dir) in
  map (fun s => let d := dsts_of dir s in (filter (fun s' => forallb (fun x => nmem x (dsts_of dir s')) d) srcs, d)) srcs.
Definition best (l : list (list gnode * list gnode)) : option (list gnode * list gnode) :=
  fold_left (fun acc b => match acc with None => Some b | Some a => if (rank_of a <? rank_of b)%Z then Some b else acc end) l None.
(** The loop, lines 213-237; [None]: out of fuel. *)
Fixpoint biclique_loop (fuel : nat) (st : list gedge * list gedge * list gnode) : option (list gedge * list gedge * list gnode) :=
  match st with (dir, edges, nodes) =>
    match dir with
    | [] => Some st
    | _ => match best (bicliques dir) with
           | Some b => if (rank_of b <? 1)%Z then Some st else
               match fuel with
               | 0 => None
               | S fuel =>
                 let q := (("biclique_" ++ conn ++ str_nat (List.length nodes))%string, "") in
                 biclique_loop fuel (ediff dir (pairs_of (fst b) (snd b)),
                                     edges ++ map (fun s => (s, q)) (fst b) ++ map (fun d => (q, d)) (snd b), nodes ++ [q])
               end
           | None => None       (* not reached *)
           end
    end
  end.
Definition bicliqued (dir : list gedge) : option (list gedge * list gedge * list gnode) := biclique_loop (List.length dir) (dir, [], []).

(** The five steps for one connection set, lines 381-385. *)
Record summary := Summary { su_und : list gedge; su_dir : list gedge; su_clique_edges : list gedge; su_cliques : list gnode;
                            su_biclique_edges : list gedge; su_bicliques : list gnode }.
Definition summarise (find : finder) (directed : list gedge) : option summary :=
  let r1 := reformat [] directed true in
  match cliqued find (fst r1) with (und, cedges, cnodes) =>
    let r2 := reformat und (snd r1) false in
    match bicliqued (snd r2) with
    | None => None
    | Some (dir, bedges, bnodes) =>
      let r3 := reformat (fst r2) dir true in
      Some (Summary (fst r3) (snd r3) cedges cnodes bedges bnodes)
    end
  end.
End Clique.

(** ** The whole graph *)
Inductive nkind := KWork | KClique | KBiclique.
(** DotGraph.Node with the name of its subgraph; DotGraph.Edge. *)
Record dnode := DNode { nd_sub : string; nd_name : string; nd_kind : nkind; nd_label : list string }.
Record dedge := DEdge { de_src : string; de_dst : string; de_label : string; de_dir : bool }.
Record dot := Dot { g_nodes : list dnode; g_edges : list dedge }.

Section Dot.
(** Peers, and what _get_peer_details (lines 72-103) says of them; [p_key] is str(peer).  Connections: truth value, text
    (get_simplified_connections_representation with 'All connections' replaced). *)
Context {P C : Type} (p_eqb : P -> P -> bool) (p_key p_name p_ns p_text : P -> string).
Context (c_eqb : C -> C -> bool) (c_true : C -> bool) (c_str : C -> string).
Context (find : finder).
Definition conn_map := list (C * list (P * P)).       (* props_to_peers *)
Definition pmem (p : P) (l : list P) : bool := existsb (p_eqb p) l.

(** The edges of a peer, lines 274-282: (other peer, connections, is incoming). *)
Definition pedge := (P * C * bool)%type.
Definition edges_at (m : conn_map) (p : P) : list pedge :=
  flat_map (fun e => if c_true (fst e) then
    flat_map (fun sd => if p_eqb (fst sd) (snd sd) then [] else
      (if p_eqb p (fst sd) then [(snd sd, fst e, false)] else []) ++ (if p_eqb p (snd sd) then [(fst sd, fst e, true)] else [])) (snd e) else []) m.
(** Every peer with an edge is a key of peers_edges (otherwise KeyError, lines 281-282). *)
Definition known (all : list P) (m : conn_map) : bool :=
  forallb (fun e => negb (c_true (fst e)) || forallb (fun sd => p_eqb (fst sd) (snd sd) || (pmem (fst sd) all && pmem (snd sd) all)) (snd e)) m.
(** Lines 286-291. *)
Definition with_self (p : P) (l : list pedge) : list pedge :=
  l ++ flat_map (fun c => [(p, c, false); (p, c, true)]) (map (fun e => snd (fst e)) l).
Definition pedge_eqb (a b : pedge) : bool :=
  p_eqb (fst (fst a)) (fst (fst b)) && c_eqb (snd (fst a)) (snd (fst b)) && Bool.eqb (snd a) (snd b).
Definition same_edges (l m : list pedge) : bool := forallb (fun e => existsb (pedge_eqb e) m) l && forallb (fun e => existsb (pedge_eqb e) l) m.
(** edges_props, lines 283-284: the last assignment. *)
Definition pair_props (m : conn_map) (a b : P) : option C :=
  fold_left (fun r e => if c_true (fst e) && existsb (fun sd => negb (p_eqb (fst sd) (snd sd)) &&
       ((p_eqb a (fst sd) && p_eqb b (snd sd)) || (p_eqb a (snd sd) && p_eqb b (fst sd)))) (snd e) then Some (fst e) else r) m None.
(** _find_equal_groups, lines 240-253; [edges] gives the edges of a peer. *)
Definition gkey := (string * list pedge)%type.
Fixpoint add_group (k : gkey) (p : P) (d : list (gkey * list P)) : list (gkey * list P) :=
  match d with
  | [] => [(k, [p])]
  | (k', l) :: t => if String.eqb (fst k) (fst k') && same_edges (snd k) (snd k') then (k', l ++ [p]) :: t else (k', l) :: add_group k p t
  end.
Fixpoint insert_peer (p : P) (l : list P) : list P :=
  match l with [] => [p] | x :: t => if str_lt (p_key x) (p_key p) then x :: insert_peer p t else p :: l end.
Definition sort_peers (l : list P) : list P := fold_right insert_peer [] l.
Definition equal_groups (edges : P -> list pedge) (ps : list P) : list (list P) * list P :=
  let d := fold_left (fun d p => add_group (p_ns p, edges p) p d) ps [] in
  (flat_map (fun g => if 1 <? List.length (snd g) then [sort_peers (snd g)] else []) d,
   flat_map (fun g => match snd g with [p] => [p] | _ => [] end) d).
(** _get_equals_groups, lines 255-304. *)
Definition groups_of (all : list P) (m : conn_map) : option (list (list P * option C)) :=
  if known all m then
    let g2 := equal_groups (fun p => with_self p (edges_at m p)) all in
    let connected := map (fun g => (g, match g with a :: b :: _ => pair_props m a b | _ => None end)) (fst g2) in
    let g1 := equal_groups (fun p => filter (fun e => negb (p_eqb (fst (fst e)) p)) (with_self p (edges_at m p))) (filter (fun p => pmem p (snd g2)) all) in
    Some (connected ++ map (fun g => (g, None)) (fst g1) ++ map (fun p => ([p], None)) (snd g1))
  else None.

(** get_connectivity_dot_format_str, lines 354-366: the nodes of the groups and their own edges.  Simplification: the texts are neither empty nor
    surrounded by blanks (DotGraph.py:82). *)
Definition group_part (g : list P * option C) : list dnode * list dedge :=
  match fst g with
  | [] => ([], [])       (* not reached *)
  | p :: _ =>
    let text := match fst g with [_] => [p_text p] | l => sorted_set (map p_text l) end in
    ([DNode (p_ns p) (p_name p) KWork text],
     match snd g with
     | Some c => if (1 <? List.length text) && c_true c then [DEdge (p_name p) (p_name p) (c_str c) false] else []
     | None => []
     end)
  end.
(** Lines 368-394: the nodes and edges of one connection set. *)
Definition directed_edges (reps : list P) (c : C) (pairs : list (P * P)) : list gedge :=
  flat_map (fun sd => if negb (p_eqb (fst sd) (snd sd)) && c_true c && pmem (fst sd) reps && pmem (snd sd) reps
                      then [((p_name (fst sd), p_ns (fst sd)), (p_name (snd sd), p_ns (snd sd)))] else []) pairs.
Definition edge_of (c : string) (dir : bool) (e : gedge) : dedge := DEdge (fst (fst e)) (fst (snd e)) c dir.
Definition new_node (c : string) (k : nkind) (n : gnode) : dnode := DNode (snd n) (fst n) k [c].
Definition conn_part (reps : list P) (e : C * list (P * P)) : option (list dnode * list dedge) :=
  let c := c_str (fst e) in
  match summarise c find (directed_edges reps (fst e) (snd e)) with
  | None => None
  | Some s => Some (map (new_node c KClique) (su_cliques s) ++ map (new_node c KBiclique) (su_bicliques s),
                    map (edge_of c true) (su_dir s ++ su_biclique_edges s) ++ map (edge_of c false) (su_und s ++ su_clique_edges s))
  end.
Definition dot_graph (all : list P) (m : conn_map) : option dot :=
  match groups_of all m with
  | None => None
  | Some gs =>
    let reps := flat_map (fun g => match fst g with p :: _ => [p] | [] => [] end) gs in
    match mapM (conn_part reps) m with
    | None => None
    | Some cs => let parts := map group_part gs ++ cs in
                 Some (Dot (flat_map fst parts) (flat_map snd parts))
    end
  end.
End Dot.
