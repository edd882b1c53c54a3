(** * C37, concrete graphs: a graph with cliques, bicliques and groups; graphs that show connections that are not there, or hide some. *)
From Coq Require Import ZArith List Bool Arith Lia String.
From Verif Require TextFacts.
From Verif Require Import GraphModel GraphFacts GraphGroups GraphDot PropGraph.
Import ListNotations.
Local Open Scope string_scope.
Local Open Scope list_scope.
Local Open Scope nat_scope.

(** A finder of cliques: the sets of nodes that are pairwise adjacent, and to which no node can be added. *)
Fixpoint sublists {X} (l : list X) : list (list X) := match l with [] => [[]] | x :: t => map (cons x) (sublists t) ++ sublists t end.
Definition adjb (g : list gedge) (u v : gnode) : bool := emem (u, v) g || emem (v, u) g.
Fixpoint is_clique (g : list gedge) (l : list gnode) : bool := match l with [] => true | x :: t => negb (nmem x t) && forallb (adjb g x) t && is_clique g t end.
Definition ex_find : finder := fun g => let ns := nodes_set (map fst g ++ map snd g) in
  filter (fun l => is_clique g l && negb (existsb (fun x => negb (nmem x l) && forallb (adjb g x) l) ns)) (sublists ns).
Lemma ex_find_ok : finder_ok ex_find.
Proof.
  intros g c H. apply filter_In in H as [_ H]. apply andb_true_iff in H as [H _]. revert H. induction c as [|x c IH]; intros H; [split; [constructor|intros u v []]|].
  cbn [is_clique] in H. rewrite !andb_true_iff, negb_true_iff in H. destruct H as [[H1 H2] H3]. destruct (IH H3) as [N A].
  assert (Nx : ~ In x c) by (intros X; apply nmem_spec in X; congruence). split; [constructor; auto|].
  assert (S : forall y, In y c -> sym g x y).
  { intros y Hy. rewrite forallb_forall in H2. apply H2 in Hy. unfold adjb in Hy. apply orb_true_iff in Hy as [Hy|Hy]; apply emem_spec in Hy; [left|right]; auto. }
  intros u v [<-|Hu] [<-|Hv] D; [congruence|auto|destruct (S u Hu); [right|left]; auto|auto].
Qed.
(** Peers are (namespace, name); connections are texts. *)
Definition peer := (string * string)%type.
Definition pname (p : peer) : string := (fst p ++ "/" ++ snd p)%string.
Definition peer_eqb (a b : peer) : bool := gnode_eqb a b.
Definition graph (all : list peer) (m : list (string * list (peer * peer))) : option dot :=
  dot_graph peer_eqb pname pname fst snd String.eqb (fun _ => true) (fun c => c) ex_find all m.
Definition both (l : list peer) : list (peer * peer) := filter (fun e => negb (peer_eqb (fst e) (snd e))) (pairs_of l l).

(** ** A graph *)
Definition a1 := ("n1", "a1"). Definition a2 := ("n1", "a2"). Definition a3 := ("n2", "a3"). Definition a4 := ("n3", "a4").
Definition s1 := ("n1", "s1"). Definition s2 := ("n2", "s2"). Definition t1 := ("n1", "t1"). Definition t2 := ("n2", "t2"). Definition t3 := ("n3", "t3").
Definition x1 := ("n4", "x1"). Definition x2 := ("n4", "x2"). Definition y1 := ("n4", "y1"). Definition y2 := ("n4", "y2").
Definition g_all : list peer := [a1; a2; a3; a4; s1; s2; t1; t2; t3; x1; x2; y1; y2].
Definition g_map : list (string * list (peer * peer)) :=
  [("TCP", both [a1; a2; a3; a4] ++ pairs_of [s1; s2] [t1; t2; t3] ++ [(s1, a1)]);
   ("UDP", both [x1; x2] ++ pairs_of [y1; y2] [x1; x2])].
Definition g_dot : dot := match graph g_all g_map with Some g => g | None => Dot [] [] end.
(** a1 … a4 are joined by two clique nodes, s1 and s2 to t1, t2 and t3 by a biclique node; x1 and x2, and y1 and y2, are written in one node. *)
Example g_dot_nodes : map (fun d => (nd_name d, nd_kind d, nd_label d)) (g_nodes g_dot) =
  [("n4/x1", KWork, ["x1"; "x2"]); ("n4/y1", KWork, ["y1"; "y2"]);
   ("n1/a1", KWork, ["a1"]); ("n1/a2", KWork, ["a2"]); ("n2/a3", KWork, ["a3"]); ("n3/a4", KWork, ["a4"]); ("n1/s1", KWork, ["s1"]); ("n2/s2", KWork, ["s2"]);
   ("n1/t1", KWork, ["t1"]); ("n2/t2", KWork, ["t2"]); ("n3/t3", KWork, ["t3"]);
   ("clique_0", KClique, ["TCP"]); ("clique_TCP1", KClique, ["TCP"]); ("biclique_TCP0", KBiclique, ["TCP"])].
Proof. vm_compute. reflexivity. Qed.
Example g_dot_edges : map (fun e => (de_src e, de_dst e, de_label e, de_dir e)) (g_edges g_dot) =
  [("n4/x1", "n4/x1", "UDP", false); ("n1/s1", "n1/a1", "TCP", true);
   ("n1/s1", "biclique_TCP0", "TCP", true); ("n2/s2", "biclique_TCP0", "TCP", true);
   ("biclique_TCP0", "n1/t1", "TCP", true); ("biclique_TCP0", "n2/t2", "TCP", true); ("biclique_TCP0", "n3/t3", "TCP", true);
   ("clique_0", "n1/a2", "TCP", false); ("clique_0", "n1/a1", "TCP", false); ("clique_0", "clique_TCP1", "TCP", false);
   ("n2/a3", "clique_TCP1", "TCP", false); ("n3/a4", "clique_TCP1", "TCP", false); ("n4/y1", "n4/x1", "UDP", true)].
Proof. vm_compute. reflexivity. Qed.

(** The hypotheses of C37_graph, as tests. *)
Fixpoint nodupb (l : list string) : bool := match l with [] => true | x :: t => negb (existsb (String.eqb x) t) && nodupb t end.
Lemma nodupb_ok : forall l, nodupb l = true -> NoDup l.
Proof.
  induction l as [|x l IH]; intros H; constructor; cbn in H; apply andb_true_iff in H as [H1 H2]; auto. intros X. apply negb_true_iff in H1.
  assert (Y : existsb (String.eqb x) l = true) by (apply existsb_exists; exists x; split; [exact X|apply String.eqb_refl]). congruence.
Qed.
Definition text_okb (c : string) : bool := match c with String a _ => negb (TextFacts.is_digit a) | EmptyString => true end.
Definition in_all (all : list peer) (e : peer * peer) : bool := peer_eqb (fst e) (snd e) || (nmem (fst e) all && nmem (snd e) all).
Definition single_b (m : list (string * list (peer * peer))) : bool :=
  forallb (fun e1 => forallb (fun e2 => String.eqb (fst e1) (fst e2) ||
    negb (existsb (fun x => String.eqb (fst (fst x)) (fst (snd x)) && negb (peer_eqb (fst x) (snd x)) && emem x (snd e2)) (snd e1))) m) m.
Definition graph_okb (all : list peer) (m : list (string * list (peer * peer))) : bool :=
  nodupb (map pname all) && forallb (fun p => negb (starts "clique_" (pname p)) && negb (starts "biclique_" (pname p))) all &&
  forallb (fun e => text_okb (fst e)) m && forallb (fun e => forallb (in_all all) (snd e)) m && single_b m.
Definition link (m : list (string * list (peer * peer))) (c : string) (p q : peer) : Prop := exists l, In (c, l) m /\ In (p, q) l.
Lemma link_allowed : forall m c p q, allowed (fun _ : string => true) m c p q <-> link m c p q.
Proof. intros m c p q. unfold allowed, link. split; [intros (l & A & _ & B); eauto|intros (l & A & B); eauto]. Qed.
Theorem graph_shows : forall all m g, graph_okb all m = true -> graph all m = Some g -> nodupb (map nd_name (filter is_new (g_nodes g))) = true ->
  forall p q c, In p all -> In q all -> p <> q -> (shown g c p q <-> link m c p q).
Proof.
  intros all m g H E D p q c Hp Hq N. unfold graph_okb in H. rewrite !andb_true_iff in H. destruct H as [[[[H1 H2] H3] H4] H5]. apply nodupb_ok in H1, D.
  rewrite forallb_forall in H2, H3, H4.
  assert (PE : forall a b : peer, peer_eqb a b = true <-> a = b) by (intros a b; apply gnode_eqb_spec).
  destruct (C37_graph peer string peer_eqb pname pname fst snd String.eqb (fun _ => true) (fun c => c) ex_find all m) as (g' & E' & _ & K); auto.
  - intros a b. apply String.eqb_eq.
  - exact ex_find_ok.
  - apply (NoDup_of_map _ _ pname). exact H1.
  - intros x y Hx Hy Exy. apply (flat_unique peer string (fun z => [pname z]) all x y (pname x)); [|exact Hx|exact Hy|left; auto|left; auto].
    replace (flat_map (fun z => [pname z]) all) with (map pname all); [exact H1|]. clear. induction all as [|z l IH]; cbn [map flat_map app]; congruence.
  - intros x Hx. apply H2 in Hx. apply andb_true_iff in Hx as [A B]. apply negb_true_iff in A, B. split; assumption.
  - intros e He. apply H3 in He. unfold text_okb in He. unfold text_ok. destruct (fst e); [auto|apply negb_true_iff in He; exact He].
  - intros [x1 x2] [y1 y2] _ _ A B. cbn in A, B. congruence.
  - intros d x y Nxy A. apply link_allowed in A as (l & A & B). specialize (H4 _ A). cbn [snd] in H4. rewrite forallb_forall in H4. apply H4 in B. unfold in_all in B. cbn [fst snd] in B.
    apply orb_true_iff in B as [B|B]; [apply PE in B; congruence|]. apply andb_true_iff in B as [B1 B2]. apply nmem_spec in B1, B2. auto.
  - intros x y c1 c2 _ _ Nxy Ens A1 A2. apply link_allowed in A1 as (l1 & A1 & B1). apply link_allowed in A2 as (l2 & A2 & B2).
    unfold single_b in H5. rewrite forallb_forall in H5. specialize (H5 _ A1). rewrite forallb_forall in H5. specialize (H5 _ A2). cbn [fst snd] in H5. apply orb_true_iff in H5 as [H5|H5]; [apply String.eqb_eq in H5; exact H5|].
    exfalso. apply negb_true_iff in H5. match type of H5 with ?b = false => assert (X : b = true) end; [|congruence]. apply existsb_exists. exists (x, y). split; [exact B1|]. cbn [fst snd].
    assert (Pxy : peer_eqb x y = false) by (destruct (peer_eqb x y) eqn:Z; auto; apply PE in Z; congruence). rewrite Pxy, Ens, String.eqb_refl. apply emem_spec. exact B2.
  - unfold graph in E. rewrite E in E'. injection E' as <-. destruct p as [p1 p2], q as [q1 q2].
    rewrite (K D (p1, p2) (q1, q2) c Hp Hq N). split; [intros (c' & -> & A); apply link_allowed; exact A|intros A; exists c; split; auto; apply link_allowed; exact A].
Qed.
(** The hypotheses hold of the graph above; what it shows. *)
Example g_dot_ok : graph_okb g_all g_map = true /\ graph g_all g_map = Some g_dot /\ nodupb (map nd_name (filter is_new (g_nodes g_dot))) = true.
Proof. repeat apply conj; vm_compute; reflexivity. Qed.
Example g_dot_shows : shown g_dot "TCP" a2 a4 /\ shown g_dot "TCP" s2 t3 /\ ~ shown g_dot "TCP" t3 s2 /\ shown g_dot "UDP" x2 x1 /\ ~ shown g_dot "UDP" y1 y2 /\ shown g_dot "UDP" y2 x1.
Proof.
  destruct g_dot_ok as (A & B & D).
  assert (G : forall p q c, nmem p g_all = true -> nmem q g_all = true -> peer_eqb p q = false -> (shown g_dot c p q <-> link g_map c p q)).
  { intros p q c Hp Hq N. apply (graph_shows g_all g_map g_dot A B D); [apply nmem_spec, Hp|apply nmem_spec, Hq|]. intros X. apply gnode_eqb_spec in X. unfold peer_eqb in N. congruence. }
  assert (L : forall c p q, existsb (fun e => String.eqb c (fst e) && emem (p, q) (snd e)) g_map = true <-> link g_map c p q).
  { intros c p q. rewrite existsb_exists. unfold link. split.
    - intros ([c' l] & H & X). cbn [fst snd] in X. apply andb_true_iff in X as [X Y]. apply String.eqb_eq in X. apply emem_spec in Y. subst. eauto.
    - intros (l & H & X). exists (c, l). split; auto. cbn [fst snd]. rewrite String.eqb_refl. apply emem_spec. exact X. }
  assert (Y : forall p q c, nmem p g_all = true -> nmem q g_all = true -> peer_eqb p q = false -> existsb (fun e => String.eqb c (fst e) && emem (p, q) (snd e)) g_map = true -> shown g_dot c p q)
    by (intros p q c Hp Hq N X; apply G; auto; apply L; exact X).
  assert (Z : forall p q c, nmem p g_all = true -> nmem q g_all = true -> peer_eqb p q = false -> existsb (fun e => String.eqb c (fst e) && emem (p, q) (snd e)) g_map = false -> ~ shown g_dot c p q).
  { intros p q c Hp Hq N X S. apply G in S; auto. apply L in S. congruence. }
  split; [apply Y; vm_compute; reflexivity|]. split; [apply Y; vm_compute; reflexivity|]. split; [apply Z; vm_compute; reflexivity|].
  split; [apply Y; vm_compute; reflexivity|]. split; [apply Z; vm_compute; reflexivity|apply Y; vm_compute; reflexivity].
Qed.

(** ** Clique nodes of two connection sets with one name *)
(** The clique nodes of the namespaces are named clique_0, clique_1, … for every connection set anew (ConnectivityGraph.py:166), and nodes of one name are one
    node of a dot graph.  Here the graph joins a2 and b2 by clique_0 though they are not connected. *)
Definition b1 := ("n1", "b1"). Definition b2 := ("n1", "b2"). Definition b3 := ("n2", "b3"). Definition b4 := ("n3", "b4").
Definition e0 := ("n5", "e").
Definition h_all : list peer := [a1; a2; a3; a4; b1; b2; b3; b4; e0].
Definition h_map : list (string * list (peer * peer)) := [("TCP", both [a1; a2; a3; a4] ++ [(e0, a1); (e0, b1)]); ("UDP", both [b1; b2; b3; b4])].
Theorem C37_clique_names_refuted : exists all m g p q c, graph_okb all m = true /\ graph all m = Some g /\ In p all /\ In q all /\ p <> q /\
  shown g c p q /\ (forall c', ~ link m c' p q).
Proof.
  exists h_all, h_map, (match graph h_all h_map with Some g => g | None => Dot [] [] end), a2, b2, "TCP".
  split; [vm_compute; reflexivity|]. split; [vm_compute; reflexivity|]. split; [right; left; reflexivity|]. split; [do 5 right; left; reflexivity|]. split; [discriminate|]. split.
  - exists "n1/a2", "n1/b2". split; [exists (DNode "n1" "n1/a2" KWork ["a2"]); vm_compute; tauto|]. split; [exists (DNode "n1" "n1/b2" KWork ["b2"]); vm_compute; tauto|].
    right. split; [discriminate|]. right. exists "clique_0". split; [exists (DNode "n1" "clique_0" KClique ["TCP"]); vm_compute; tauto|].
    split; [exists "TCP"; vm_compute; tauto|]. apply via_edge. exists "UDP". vm_compute. tauto.
  - intros c' (l & H & K). assert (X : existsb (fun e => emem (a2, b2) (snd e)) h_map = true) by (apply existsb_exists; exists (c', l); split; [exact H|apply emem_spec; exact K]). vm_compute in X. discriminate X.
Qed.

(** ** A group connected by two connection sets *)
(** Only the last one is shown (edges_props is overwritten, ConnectivityGraph.py:283-284). *)
Definition k_map : list (string * list (peer * peer)) := [("TCP", both [x1; x2]); ("UDP", both [x1; x2])].
Theorem C37_group_refuted : exists all m g p q c, graph all m = Some g /\ In p all /\ In q all /\ p <> q /\ distinct_new g /\ link m c p q /\ ~ shown g c p q.
Proof.
  exists [x1; x2], k_map, (Dot [DNode "n4" "n4/x1" KWork ["x1"; "x2"]] [DEdge "n4/x1" "n4/x1" "UDP" false]), x1, x2, "TCP".
  split; [vm_compute; reflexivity|]. split; [left; reflexivity|]. split; [right; left; reflexivity|]. split; [discriminate|]. split; [apply nodupb_ok; vm_compute; reflexivity|]. split.
  - exists (both [x1; x2]). split; [left; reflexivity|]. vm_compute. tauto.
  - intros (a & b & _ & _ & [J|[_ [(n & (d & [<-|[]] & K & _) & _)|(n & (d & [<-|[]] & K & _) & _)]]]); [|discriminate K|discriminate K].
    destruct J as [[J|[]]|[[J|[]]|[J|[]]]]; discriminate J.
Qed.

(** ** A group in a clique *)
(** The tooltip of a clique node says "Traffic allowed between any two workloads connected to the CLIQUE" (DotGraph.py:63).  Here y1 and y2 are written in a
    node connected to the clique, and no traffic is allowed between them: a group is to be read as one workload, as [shown] does. *)
Definition z_all : list peer := [a1; a3; a4; y1; y2].
Definition z_map : list (string * list (peer * peer)) := [("TCP", filter (fun e => negb (peer_eqb (fst e) y1 && peer_eqb (snd e) y2 || peer_eqb (fst e) y2 && peer_eqb (snd e) y1)) (both z_all))].
Definition at_clique (g : dot) (c : string) (w : string * string) (n : string) : Prop := of_kind g KClique c n /\ exists a, written_in g w a /\ line g a n.
Theorem C37_clique_tooltip_refuted : exists all m g p q c n, graph_okb all m = true /\ graph all m = Some g /\ distinct_new g /\ In p all /\ In q all /\ p <> q /\
  at_clique g c p n /\ at_clique g c q n /\ ~ link m c p q /\ ~ link m c q p.
Proof.
  exists z_all, z_map, (match graph z_all z_map with Some g => g | None => Dot [] [] end), y1, y2, "TCP", "clique_TCP0".
  split; [vm_compute; reflexivity|]. split; [vm_compute; reflexivity|]. split; [apply nodupb_ok; vm_compute; reflexivity|].
  split; [do 3 right; left; reflexivity|]. split; [do 4 right; left; reflexivity|]. split; [discriminate|].
  assert (W : forall y, y = y1 \/ y = y2 -> at_clique (match graph z_all z_map with Some g => g | None => Dot [] [] end) "TCP" y "clique_TCP0").
  { intros y Hy. split; [exists (DNode "" "clique_TCP0" KClique ["TCP"]); vm_compute; tauto|]. exists "n4/y1". split; [|exists "TCP"; vm_compute; tauto].
    exists (DNode "n4" "n4/y1" KWork ["y1"; "y2"]). destruct Hy as [->| ->]; vm_compute; tauto. }
  split; [apply W; auto|]. split; [apply W; auto|].
  assert (L : forall p q, link z_map "TCP" p q -> existsb (fun e => emem (p, q) (snd e)) z_map = true) by (intros p q (l & H & K); apply existsb_exists; exists ("TCP", l); split; [exact H|apply emem_spec; exact K]).
  split; intros X; apply L in X; vm_compute in X; discriminate X.
Qed.
Print Assumptions graph_shows.
Print Assumptions g_dot_shows.
Print Assumptions C37_clique_names_refuted.
Print Assumptions C37_group_refuted.
Print Assumptions C37_clique_tooltip_refuted.
