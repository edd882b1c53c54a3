(** * C37: the connectivity graph shows exactly the connections (ConnectivityGraph.py, DotGraph.py).

    The readings [joined], [via], [shown], … of summaries and graphs are defined in GraphFacts.v and GraphDot.v (sections "Specification"). *)
From Coq Require Import ZArith List Bool Arith String.
From Verif Require Import GraphModel GraphFacts GraphGroups GraphDot.
Import ListNotations.

(** One connection set.  The edges of the graph are given as pairs (name, namespace).  Two different nodes are joined by an edge iff they are joined in
    the summary: by a directed edge, by an undirected edge, through a biclique node, or by a path through clique nodes. *)
Theorem C37_summary : forall conn find edges, finder_ok find -> text_ok conn -> (forall e, In e edges -> own_name (fst e) /\ own_name (snd e)) ->
  exists s, summarise conn find edges = Some s /\
  forall u v, own_name u -> own_name v -> u <> v ->
    (In (u, v) edges <->
     In (u, v) (su_dir s) \/ sym (su_und s) u v \/
     (exists q, In q (su_bicliques s) /\ In (u, q) (su_biclique_edges s) /\ In (q, v) (su_biclique_edges s)) \/
     via (sym (su_clique_edges s)) (fun q => In q (su_cliques s)) u v).
Proof. intros conn find edges F T Ow. destruct (summarise_spec conn find edges F T Ow) as (s & E & O). exists s. split; [exact E|]. intros u v Hu Hv N. exact (so_eq _ _ _ O u v Hu Hv N). Qed.

(** The whole graph, for peers written by distinct names and texts.  It is made; the ends of its edges are nodes; and if its clique and biclique nodes have
    distinct names, it shows from the text of one peer to that of another exactly the connections allowed between them.
    The last hypothesis: peers of one namespace are connected by one connection set (the code says "should be only one", ConnectivityGraph.py:295). *)
Theorem C37_graph : forall (P C : Type) (p_eqb : P -> P -> bool) (p_key p_name p_ns p_text : P -> string) (c_eqb : C -> C -> bool) (c_true : C -> bool) (c_str : C -> string)
    (find : finder) (all : list P) (m : list (C * list (P * P))),
  (forall a b, p_eqb a b = true <-> a = b) -> (forall a b, c_eqb a b = true <-> a = b) -> finder_ok find -> NoDup all ->
  (forall p q, In p all -> In q all -> p_name p = p_name q -> p = q) ->
  (forall p, In p all -> own_name (p_name p, p_ns p)) ->
  (forall e, In e m -> text_ok (c_str (fst e))) ->
  (forall p q, In p all -> In q all -> p_ns p = p_ns q -> p_text p = p_text q -> p = q) ->
  (forall c p q, p <> q -> allowed c_true m c p q -> In p all /\ In q all) ->
  (forall p q c1 c2, In p all -> In q all -> p <> q -> p_ns p = p_ns q -> allowed c_true m c1 p q -> allowed c_true m c2 p q -> c_str c1 = c_str c2) ->
  exists g, dot_graph p_eqb p_key p_name p_ns p_text c_eqb c_true c_str find all m = Some g /\
  (forall d, In d (g_edges g) -> (exists n, In n (g_nodes g) /\ nd_name n = de_src d) /\ (exists n, In n (g_nodes g) /\ nd_name n = de_dst d)) /\
  (distinct_new g -> forall p q text, In p all -> In q all -> p <> q ->
     (shown g text (p_ns p, p_text p) (p_ns q, p_text q) <-> exists c, c_str c = text /\ allowed c_true m c p q)).
Proof.
  intros P C p_eqb p_key p_name p_ns p_text c_eqb c_true c_str find all m PE CE FO Na HN HO HT HW HK HU.
  destruct (dot_graph_some p_eqb p_key p_name p_ns p_text c_eqb c_true c_str PE CE find FO all m Na HO HT HK) as (g & E). exists g. split; [exact E|]. split.
  - exact (dot_graph_ends p_eqb p_key p_name p_ns p_text c_eqb c_true c_str PE CE find FO all m Na HO HT g E).
  - intros D. exact (dot_graph_shows p_eqb p_key p_name p_ns p_text c_eqb c_true c_str PE CE find FO all m Na HN HO HT HW HU g E D).
Qed.
Print Assumptions C37_summary.
Print Assumptions C37_graph.
