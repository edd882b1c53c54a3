(** * Reading the connectivity graph: the nodes and edges of the dot file show the connections of the peers. *)
From Coq Require Import ZArith List Bool Arith Lia String Permutation.
From Verif Require Import PortProtoModel GraphModel GraphFacts GraphGroups.
Import ListNotations.
Local Open Scope list_scope.
Local Open Scope nat_scope.

(** ** Specification: how the graph is read *)
(** The workload [w] (namespace and text) is written in the node named [n]. *)
Definition written_in (g : dot) (w : string * string) (n : string) : Prop :=
  exists d, In d (g_nodes g) /\ nd_kind d = KWork /\ nd_sub d = fst w /\ In (snd w) (nd_label d) /\ nd_name d = n.
(** [n] is a clique or biclique node for the connections [c]. *)
Definition of_kind (g : dot) (k : nkind) (c n : string) : Prop := exists d, In d (g_nodes g) /\ nd_kind d = k /\ nd_label d = [c] /\ nd_name d = n.
(** The edges of cliques and bicliques have no label (DotGraph.py:209-210). *)
Definition arrow (g : dot) (a b : string) : Prop := exists c, In (DEdge a b c true) (g_edges g).
Definition line (g : dot) (a b : string) : Prop := exists c, In (DEdge a b c false) (g_edges g) \/ In (DEdge b a c false) (g_edges g).
Definition plain (g : dot) (c a b : string) : Prop := In (DEdge a b c true) (g_edges g) \/ In (DEdge a b c false) (g_edges g) \/ In (DEdge b a c false) (g_edges g).
Definition by_biclique (g : dot) (c a b : string) : Prop := exists q, of_kind g KBiclique c q /\ arrow g a q /\ arrow g q b.
Definition by_clique (g : dot) (c a b : string) : Prop := exists q, of_kind g KClique c q /\ line g a q /\ via (line g) (of_kind g KClique c) q b.
(** What is written in one node is connected by the edge of the node to itself only. *)
Definition joins (g : dot) (c a b : string) : Prop := plain g c a b \/ (a <> b /\ (by_biclique g c a b \/ by_clique g c a b)).
Definition shown (g : dot) (c : string) (w1 w2 : string * string) : Prop := exists a b, written_in g w1 a /\ written_in g w2 b /\ joins g c a b.
(** The clique and biclique nodes have distinct names. *)
Definition is_new (d : dnode) : bool := match nd_kind d with KWork => false | _ => true end.
Definition distinct_new (g : dot) : Prop := NoDup (map nd_name (filter is_new (g_nodes g))).

(** ** Generalities *)
Lemma flat_unique : forall X Y (f : X -> list Y) l a b y, NoDup (flat_map f l) -> In a l -> In b l -> In y (f a) -> In y (f b) -> a = b.
Proof.
  intros X Y f l. induction l as [|x l IH]; intros a b y N Ha Hb Ya Yb; [destruct Ha|]. cbn [flat_map] in N.
  assert (D : forall z, In z (f x) -> ~ In z (flat_map f l)).
  { clear - N. induction (f x) as [|y k IHk]; intros z Hz; [destruct Hz|]. cbn in N. apply NoDup_cons_iff in N as [A B]. destruct Hz as [->|Hz]; [intros K; apply A; apply in_or_app; auto|apply IHk; auto]. }
  apply nodup_app_r in N. destruct Ha as [<-|Ha], Hb as [<-|Hb]; auto; [exfalso|exfalso|apply (IH a b y); auto].
  - apply (D y Ya). apply in_flat_map. eauto.
  - apply (D y Yb). apply in_flat_map. eauto.
Qed.
Lemma mapM_some : forall X Y (f : X -> option Y) l, (forall x, In x l -> exists y, f x = Some y) -> exists r, mapM f l = Some r.
Proof.
  intros X Y f l. induction l as [|x l IH]; intros H; [exists []; auto|]. destruct (H x (or_introl eq_refl)) as (y & E), IH as (r & R); [intros z Hz; apply H; right; auto|].
  exists (y :: r). cbn [mapM]. rewrite E, R. auto.
Qed.
Lemma mapM_both : forall X Y (f : X -> option Y) l r, mapM f l = Some r -> (forall y, In y r -> exists x, In x l /\ f x = Some y) /\ (forall x, In x l -> exists y, In y r /\ f x = Some y).
Proof.
  intros X Y f l. induction l as [|x l IH]; intros r E; cbn [mapM] in E; [injection E as <-; split; intros z []|].
  destruct (f x) as [y|] eqn:Ex; [|discriminate E]. cbn [bind] in E. destruct (mapM f l) as [r'|] eqn:Er; [|discriminate E]. cbn [bind] in E. injection E as <-.
  destruct (IH r' eq_refl) as [A B]. split.
  - intros z [<-|Hz]; [exists x; split; [left; auto|auto]|]. destruct (A z Hz) as (w & Hw & K). exists w. split; [right; auto|auto].
  - intros z [<-|Hz]; [exists y; split; [left; auto|auto]|]. destruct (B z Hz) as (w & Hw & K). exists w. split; [right; auto|auto].
Qed.
Lemma same_fst : forall (l : list gnode) u v, NoDup (map fst l) -> In u l -> In v l -> fst u = fst v -> u = v.
Proof.
  intros l u v N Hu Hv E. apply (flat_unique gnode string (fun x => [fst x]) l u v (fst u)); [|exact Hu|exact Hv|left; auto|left; auto].
  replace (flat_map (fun x : gnode => [fst x]) l) with (map fst l); [exact N|]. clear. induction l as [|x l IH]; cbn; congruence.
Qed.

(** ** The parts of the graph *)
Definition render (c : string) (s : summary) : list dnode * list dedge :=
  (map (new_node c KClique) (su_cliques s) ++ map (new_node c KBiclique) (su_bicliques s),
   map (edge_of c true) (su_dir s ++ su_biclique_edges s) ++ map (edge_of c false) (su_und s ++ su_clique_edges s)).
Definition part := (list dnode * list dedge)%type.
Definition new_names (p : part) : list string := map nd_name (fst p).

Section Dot.
Context {P C : Type} (p_eqb : P -> P -> bool) (p_key p_name p_ns p_text : P -> string).
Context (c_eqb : C -> C -> bool) (c_true : C -> bool) (c_str : C -> string).
Context (PE : forall a b, p_eqb a b = true <-> a = b) (CE : forall a b, c_eqb a b = true <-> a = b).
Context (find : finder) (FO : finder_ok find).
Context (all : list P) (m : list (C * list (P * P))).
Context (Nall : NoDup all).
Context (HN : forall p q, In p all -> In q all -> p_name p = p_name q -> p = q).
Context (HO : forall p, In p all -> own_name (p_name p, p_ns p)).
Context (HT : forall e, In e m -> text_ok (c_str (fst e))).
Definition node (p : P) : gnode := (p_name p, p_ns p).

Section Reps.
Context (reps : list P) (HR : forall p, In p reps -> In p all).
Definition ends (e : C * list (P * P)) : list gedge := directed_edges p_eqb p_name p_ns c_true reps (fst e) (snd e).
Lemma ends_In : forall e u v, In (u, v) (ends e) <-> exists p q, u = node p /\ v = node q /\ In p reps /\ In q reps /\ p <> q /\ c_true (fst e) = true /\ In (p, q) (snd e).
Proof using PE.
  intros [c l] u v. unfold ends, directed_edges. cbn [fst snd]. rewrite in_flat_map. split.
  - intros ([p q] & H & K). cbn [fst snd] in K. destruct (negb (p_eqb p q) && c_true c && pmem p_eqb p reps && pmem p_eqb q reps) eqn:E; [|destruct K].
    destruct K as [K|[]]. injection K as <- <-. rewrite !andb_true_iff, negb_true_iff in E. destruct E as [[[E1 E2] E3] E4]. apply (pmem_spec p_eqb PE) in E3, E4.
    exists p, q. repeat split; auto. intros ->. rewrite (p_refl p_eqb PE) in E1. discriminate.
  - intros (p & q & -> & -> & Hp & Hq & N & T & H). exists (p, q). split; auto. cbn [fst snd]. apply (pmem_spec p_eqb PE) in Hp, Hq. rewrite Hp, Hq, T.
    destruct (p_eqb p q) eqn:E; [apply PE in E; congruence|]. cbn. left. reflexivity.
Qed.
Lemma node_of_ends : forall e u, node_of (ends e) u -> exists p, In p reps /\ u = node p.
Proof using PE. intros e u ([a b] & H & K). apply ends_In in H as (p & q & -> & -> & Hp & Hq & _). cbn in K. destruct K as [->| ->]; eauto. Qed.
Lemma ends_nodes : forall e p q, In p reps -> In q reps -> (In (node p, node q) (ends e) <-> p <> q /\ c_true (fst e) = true /\ In (p, q) (snd e)).
Proof using PE HN HR.
  intros e p q Hp Hq. rewrite ends_In. split.
  - intros (p' & q' & E1 & E2 & Hp' & Hq' & N & T & H). injection E1 as E1 _. injection E2 as E2 _. apply HN in E1; auto. apply HN in E2; auto. subst. auto.
  - intros (N & T & H). exists p, q. repeat split; auto.
Qed.
Lemma ends_own : forall e, In e m -> forall x, In x (ends e) -> own_name (fst x) /\ own_name (snd x).
Proof using PE HR HO. intros e He [u v] H. apply ends_In in H as (p & q & -> & -> & Hp & Hq & _). cbn [fst snd]. split; apply HO; auto. Qed.
Lemma conn_part_spec : forall e, In e m -> exists s, conn_part p_eqb p_name p_ns c_true c_str find reps e = Some (render (c_str (fst e)) s) /\ summary_ok (c_str (fst e)) (ends e) s.
Proof using PE HR HO HT FO.
  intros e He. destruct (summarise_spec (c_str (fst e)) find (ends e) FO (HT e He) (ends_own e He)) as (s & E & K). exists s. split; auto.
  unfold conn_part. fold (ends e). rewrite E. reflexivity.
Qed.

(** The graph: the work part and the parts of the connection sets. *)
Context (work : list part) (cs : list part).
Context (WN : forall w d, In w work -> In d (fst w) -> nd_kind d = KWork).
Context (WE : forall w d, In w work -> In d (snd w) -> exists p, In p reps /\ de_src d = p_name p /\ de_dst d = p_name p).
Context (CS : mapM (conn_part p_eqb p_name p_ns c_true c_str find reps) m = Some cs).
Let g := Dot (flat_map fst (work ++ cs)) (flat_map snd (work ++ cs)).
Context (DN : distinct_new g).
Lemma part_from : forall x, In x cs -> exists e s, In e m /\ x = render (c_str (fst e)) s /\ summary_ok (c_str (fst e)) (ends e) s.
Proof using PE HR HO HT FO CS.
  intros x Hx. destruct (mapM_both _ _ _ _ _ CS) as [A _]. destruct (A x Hx) as (e & He & K). destruct (conn_part_spec e He) as (s & K' & O). rewrite K in K'. injection K' as ->. eauto.
Qed.
Lemma part_of : forall e, In e m -> exists s, In (render (c_str (fst e)) s) cs /\ summary_ok (c_str (fst e)) (ends e) s.
Proof using PE HR HO HT FO CS.
  intros e He. destruct (mapM_both _ _ _ _ _ CS) as [_ A]. destruct (A e He) as (x & Hx & K). destruct (conn_part_spec e He) as (s & K' & O). rewrite K in K'. injection K' as ->. eauto.
Qed.
Lemma in_nodes : forall d, In d (g_nodes g) <-> (exists w, In w work /\ In d (fst w)) \/ (exists x, In x cs /\ In d (fst x)).
Proof using. intros d. unfold g. cbn [g_nodes]. rewrite in_flat_map. split; [intros (x & H & K); apply in_app_or in H as [H|H]; eauto|intros [(x & H & K)|(x & H & K)]; exists x; split; auto; apply in_or_app; auto]. Qed.
Lemma in_edges : forall d, In d (g_edges g) <-> (exists w, In w work /\ In d (snd w)) \/ (exists x, In x cs /\ In d (snd x)).
Proof using. intros d. unfold g. cbn [g_edges]. rewrite in_flat_map. split; [intros (x & H & K); apply in_app_or in H as [H|H]; eauto|intros [(x & H & K)|(x & H & K)]; exists x; split; auto; apply in_or_app; auto]. Qed.
Lemma names_nodup : NoDup (flat_map new_names cs).
Proof using DN CS WN PE HR HO HT FO.
  unfold distinct_new in DN. unfold g in DN; cbn [g_nodes] in DN. rewrite flat_map_app in DN.
  assert (F : forall l l', filter is_new (l ++ l') = filter is_new l ++ filter is_new l') by (intros l l'; induction l as [|x l IH]; cbn; [auto|destruct (is_new x); cbn; congruence]).
  rewrite F, map_app in DN. apply nodup_app_r in DN.
  assert (K : forall d, In d (flat_map fst cs) -> is_new d = true).
  { intros d Hd. apply in_flat_map in Hd as (x & Hx & Hd). destruct (part_from x Hx) as (e & s & _ & -> & _). cbn [render fst] in Hd. apply in_app_or in Hd as [Hd|Hd]; apply in_map_iff in Hd as (n & <- & _); reflexivity. }
  assert (Y : filter is_new (flat_map fst cs) = flat_map fst cs).
  { revert K. generalize (flat_map fst cs). induction l as [|d l IH]; intros K; cbn; [auto|]. rewrite (K d (or_introl eq_refl)). f_equal. apply IH. intros z Hz. apply K. right. auto. }
  assert (DN' : NoDup (map nd_name (filter is_new (flat_map fst cs)))) by exact DN. rewrite Y in DN'. replace (flat_map new_names cs) with (map nd_name (flat_map fst cs)); [exact DN'|]. clear. induction cs as [|x l IH]; cbn; [auto|]. rewrite map_app, IH. reflexivity.
Qed.
Lemma name_new : forall x n, In x cs -> In n (new_names x) -> ~ exists p, In p all /\ p_name p = n.
Proof using PE HR HO HT FO CS.
  intros x n Hx Hn (p & Hp & <-). destruct (part_from x Hx) as (e & s & _ & -> & O). unfold new_names in Hn. cbn [render fst] in Hn. rewrite map_app, !map_map in Hn.
  pose proof (HO p Hp) as Op. apply in_app_or in Hn as [Hn|Hn]; apply in_map_iff in Hn as (q & E & Hq); cbn in E.
  - apply (numbered_fresh _ _ q (so_cn _ _ _ O) Hq). unfold own_name in *. cbn [fst] in Op. rewrite E. exact Op.
  - apply (bnumbered_fresh _ _ q (so_bn _ _ _ O) Hq). unfold own_name in *. cbn [fst] in Op. rewrite E. exact Op.
Qed.
(** The ends of the edges of a part. *)
Lemma part_ends : forall x d n, In x cs -> In d (snd x) -> de_src d = n \/ de_dst d = n -> (exists p, In p reps /\ p_name p = n) \/ In n (new_names x).
Proof using PE HR HO HT FO CS.
  intros x d n Hx Hd Hn. destruct (part_from x Hx) as (e & s & _ & -> & O). unfold new_names. cbn [render fst snd] in Hd |- *. rewrite map_app, !map_map.
  assert (Nd : forall u, node_of (ends e) u -> exists p, In p reps /\ p_name p = fst u) by (intros u H; apply node_of_ends in H as (p & Hp & ->); exists p; auto).
  assert (Cl : forall u, In u (su_cliques s) -> In (fst u) (map (fun z => nd_name (new_node (c_str (fst e)) KClique z)) (su_cliques s))) by (intros u Hu; exact (in_map fst _ _ Hu)).
  assert (Bi : forall u, In u (su_bicliques s) -> In (fst u) (map (fun z => nd_name (new_node (c_str (fst e)) KBiclique z)) (su_bicliques s))) by (intros u Hu; exact (in_map fst _ _ Hu)).
  assert (G : forall y : gedge, (node_of (ends e) (fst y) \/ In (fst y) (su_cliques s) \/ In (fst y) (su_bicliques s)) -> (node_of (ends e) (snd y) \/ In (snd y) (su_cliques s) \/ In (snd y) (su_bicliques s)) ->
     (fst (fst y) = n \/ fst (snd y) = n) -> (exists p, In p reps /\ p_name p = n) \/ In n (map (fun z => nd_name (new_node (c_str (fst e)) KClique z)) (su_cliques s) ++ map (fun z => nd_name (new_node (c_str (fst e)) KBiclique z)) (su_bicliques s))).
  { intros y A B [<-|<-]; [clear B; destruct A as [A|[A|A]]|clear A; destruct B as [A|[A|A]]]; try (left; apply Nd; exact A); right; apply in_or_app; [left|right|left|right]; auto. }
  apply in_app_or in Hd as [Hd|Hd]; apply in_map_iff in Hd as (y & <- & Hy); cbn [edge_of de_src de_dst] in Hn; apply in_app_or in Hy as [Hy|Hy]; apply (G y); auto.
  - left. exists y. split; [apply (so_dir _ _ _ O); auto|auto].
  - left. exists y. split; [apply (so_dir _ _ _ O); auto|auto].
  - destruct (so_bed _ _ _ O y Hy) as [[A B]|[A B]]; auto.
  - destruct (so_bed _ _ _ O y Hy) as [[A B]|[A B]]; auto.
  - left. exists y. split; [apply (so_und _ _ _ O); auto|auto].
  - left. exists y. split; [apply (so_und _ _ _ O); auto|auto].
  - destruct (so_ced _ _ _ O y Hy) as [[A|A] _]; auto.
  - destruct (so_ced _ _ _ O y Hy) as (_ & [A|A] & _); auto.
Qed.
Lemma edge_in_part : forall x d n, In x cs -> In n (new_names x) -> In d (g_edges g) -> de_src d = n \/ de_dst d = n -> In d (snd x).
Proof using PE HR HO HT FO CS DN WN WE.
  intros x d n Hx Hn Hd E. apply in_edges in Hd as [(w & Hw & Hd)|(y & Hy & Hd)].
  - destruct (WE w d Hw Hd) as (p & Hp & E1 & E2). destruct (name_new x n Hx Hn). exists p. split; [auto|]. destruct E; congruence.
  - destruct (part_ends y d n Hy Hd E) as [(p & Hp & K)|K]; [destruct (name_new x n Hx Hn); exists p; split; auto|].
    rewrite (flat_unique _ _ new_names cs x y n names_nodup Hx Hy Hn K). exact Hd.
Qed.

Section One.
Context (e : C * list (P * P)) (He : In e m) (s : summary) (Hx : In (render (c_str (fst e)) s) cs) (O : summary_ok (c_str (fst e)) (ends e) s).
Lemma clique_name : forall u, In u (su_cliques s) -> In (fst u) (new_names (render (c_str (fst e)) s)).
Proof using. intros u H. unfold new_names. cbn [render fst]. rewrite map_app, !map_map. apply in_or_app. left. exact (in_map fst _ _ H). Qed.
Lemma biclique_name : forall u, In u (su_bicliques s) -> In (fst u) (new_names (render (c_str (fst e)) s)).
Proof using. intros u H. unfold new_names. cbn [render fst]. rewrite map_app, !map_map. apply in_or_app. right. exact (in_map fst _ _ H). Qed.
Lemma rep_node : forall u p, node_of (ends e) u -> In p reps -> fst u = p_name p -> u = node p.
Proof using PE HN HR. intros u p H Hp E. apply node_of_ends in H as (q & Hq & ->). cbn in E. apply HN in E; auto. subst. auto. Qed.
Lemma not_clique : forall u p, In u (su_cliques s) -> In p reps -> fst u = p_name p -> False.
Proof using PE HR HO HT FO CS Hx. intros u p H Hp E. apply (name_new _ _ Hx (clique_name u H)). exists p. auto. Qed.
Lemma not_biclique : forall u p, In u (su_bicliques s) -> In p reps -> fst u = p_name p -> False.
Proof using PE HR HO HT FO CS Hx. intros u p H Hp E. apply (name_new _ _ Hx (biclique_name u H)). exists p. auto. Qed.
Lemma not_both : forall u v, In u (su_cliques s) -> In v (su_bicliques s) -> fst u <> fst v.
Proof using PE HR HO HT FO CS DN WN Hx.
  intros u v Hu Hv E. assert (N : NoDup (new_names (render (c_str (fst e)) s))).
  { pose proof names_nodup as N. clear - N Hx. induction cs as [|y l IH]; [destruct Hx|]. cbn [flat_map] in N. destruct Hx as [<-|H]; [apply nodup_app_l in N; auto|apply IH; auto; apply nodup_app_r in N; auto]. }
  unfold new_names in N. cbn [render fst] in N. rewrite map_app, !map_map in N.
  assert (A : In (fst u) (map (fun z => nd_name (new_node (c_str (fst e)) KClique z)) (su_cliques s))) by exact (in_map fst _ _ Hu).
  assert (B : In (fst u) (map (fun z => nd_name (new_node (c_str (fst e)) KBiclique z)) (su_bicliques s))) by (rewrite E; exact (in_map fst _ _ Hv)).
  revert N A B. generalize (map (fun z => nd_name (new_node (c_str (fst e)) KClique z)) (su_cliques s)). generalize (map (fun z => nd_name (new_node (c_str (fst e)) KBiclique z)) (su_bicliques s)).
  clear. intros k l N A B. induction l as [|y l IH]; [destruct A|]. cbn in N. apply NoDup_cons_iff in N as [X Y]. destruct A as [->|A]; [apply X; apply in_or_app; auto|auto].
Qed.
Lemma dir_edge : forall d a b, In d (snd (render (c_str (fst e)) s)) -> de_src d = a -> de_dst d = b -> de_dir d = true -> exists y, In y (su_dir s ++ su_biclique_edges s) /\ fst (fst y) = a /\ fst (snd y) = b /\ de_label d = c_str (fst e).
Proof using. intros d a b H E1 E2 E3. cbn [render snd] in H. apply in_app_or in H as [H|H]; apply in_map_iff in H as (y & <- & H); [|discriminate E3]. exists y. auto. Qed.
Lemma und_edge : forall d a b, In d (snd (render (c_str (fst e)) s)) -> de_src d = a -> de_dst d = b -> de_dir d = false -> exists y, In y (su_und s ++ su_clique_edges s) /\ fst (fst y) = a /\ fst (snd y) = b /\ de_label d = c_str (fst e).
Proof using. intros d a b H E1 E2 E3. cbn [render snd] in H. apply in_app_or in H as [H|H]; apply in_map_iff in H as (y & <- & H); [discriminate E3|]. exists y. auto. Qed.
Lemma und_nodes : forall y, In y (su_und s) -> node_of (ends e) (fst y) /\ node_of (ends e) (snd y).
Proof using O. intros y H. apply (so_und _ _ _ O) in H. split; exists y; auto. Qed.
Lemma dir_nodes : forall y, In y (su_dir s) -> node_of (ends e) (fst y) /\ node_of (ends e) (snd y).
Proof using O. intros y H. apply (so_dir _ _ _ O) in H. split; exists y; auto. Qed.
Lemma node_not_clique : forall u v, node_of (ends e) u -> In v (su_cliques s) -> fst u = fst v -> False.
Proof using PE HR HO HT FO CS Hx. intros u v H Hv E. apply node_of_ends in H as (p & Hp & ->). cbn in E. apply (not_clique v p); auto. Qed.
Lemma node_not_biclique : forall u v, node_of (ends e) u -> In v (su_bicliques s) -> fst u = fst v -> False.
Proof using PE HR HO HT FO CS Hx. intros u v H Hv E. apply node_of_ends in H as (p & Hp & ->). cbn in E. apply (not_biclique v p); auto. Qed.
(** A line from a clique node. *)
Lemma clique_line : forall q y, In q (su_cliques s) -> line g (fst q) y -> exists v, fst v = y /\ sym (su_clique_edges s) q v /\ (node_of (ends e) v \/ In v (su_cliques s)).
Proof using PE HR HO HT FO CS DN WN WE Hx O He.
  intros q y Hq (c & H).
  assert (N : NoDup (map fst (su_cliques s))) by (apply (numbered_nodup (c_str (fst e))); [apply HT; auto|apply (so_cn _ _ _ O)]).
  destruct H as [H|H]; apply (edge_in_part _ _ (fst q) Hx (clique_name q Hq)) in H; auto; destruct (und_edge _ _ _ H eq_refl eq_refl eq_refl) as (z & Hz & E1 & E2 & _); cbn [de_src de_dst] in E1, E2;
    apply in_app_or in Hz as [Hz|Hz].
  - destruct (und_nodes z Hz) as [A _]. destruct (node_not_clique _ q A Hq E1).
  - destruct (so_ced _ _ _ O z Hz) as (A & B & _). destruct A as [A|A]; [destruct (node_not_clique _ q A Hq E1)|]. exists (snd z). split; auto. split; auto. left.
    rewrite <- (same_fst _ _ _ N A Hq E1). destruct z; exact Hz.
  - destruct (und_nodes z Hz) as [_ A]. destruct (node_not_clique _ q A Hq E2).
  - destruct (so_ced _ _ _ O z Hz) as (A & B & _). destruct B as [B|B]; [destruct (node_not_clique _ q B Hq E2)|]. exists (fst z). split; auto. split; auto. right.
    rewrite <- (same_fst _ _ _ N B Hq E2). destruct z; exact Hz.
Qed.
Lemma kind_new : forall k c n, of_kind g k c n -> k <> KWork -> exists x, In x cs /\ In n (new_names x).
Proof using WN. intros k c n (d & H & E & _ & <-) K. apply in_nodes in H as [(w & Hw & H)|(x & Hx' & H)]; [apply (WN w) in H; auto; congruence|]. exists x. split; auto. apply in_map. auto. Qed.
Lemma clique_path : forall c a b q p, In q (su_cliques s) -> fst q = a -> In p reps -> b = p_name p -> via (line g) (of_kind g KClique c) a b ->
  via (sym (su_clique_edges s)) (fun u => In u (su_cliques s)) q (node p).
Proof using PE HR HO HT HN FO CS DN WN WE Hx O He.
  intros c a b q p Hq Ea Hp -> H. remember (p_name p) as b eqn:Eb. revert q Hq Ea. induction H as [a b H|a r b H K H2 IH]; intros q Hq <-.
  - destruct (clique_line q b Hq H) as (v & E & S & [D|D]); [|subst; destruct (not_clique v p D Hp E)]. apply via_edge. rewrite <- (rep_node v p D Hp); [exact S|congruence].
  - destruct (clique_line q r Hq H) as (v & E & S & [D|D]).
    + exfalso. apply node_of_ends in D as (p' & Hp' & ->). cbn in E. destruct (kind_new _ _ _ K) as (x & X1 & X2); [discriminate|]. apply (name_new x r X1 X2). exists p'. auto.
    + apply (via_step _ _ _ v); auto.
Qed.
End One.

Theorem joins_reps : forall c p q, In p reps -> In q reps -> p <> q -> (joins g c (p_name p) (p_name q) <-> exists e, In e m /\ c_str (fst e) = c /\ In (node p, node q) (ends e)).
Proof using PE HR HO HT HN FO CS DN WN WE p_text p_key.
  intros c p q Hp Hq N.
  assert (NN : p_name p <> p_name q) by (intros E; apply N, HN; auto).
  assert (Nn : node p <> node q) by (intros E; injection E as E _; auto).
  assert (Op : own_name (node p)) by (apply HO; auto). assert (Oq : own_name (node q)) by (apply HO; auto).
  assert (Hit : forall e s, In e m -> summary_ok (c_str (fst e)) (ends e) s -> (In (node p, node q) (ends e) <-> In (node p, node q) (su_dir s) \/ sym (su_und s) (node p) (node q) \/
      joined (su_biclique_edges s) (su_bicliques s) (node p) (node q) \/ via (sym (su_clique_edges s)) (fun u => In u (su_cliques s)) (node p) (node q)))
    by (intros e s He O; apply (so_eq _ _ _ O); auto).
  split.
  - intros [H|[_ [H|H]]].
    + assert (H' : exists d, In d (g_edges g) /\ de_label d = c /\ (de_src d = p_name p /\ de_dst d = p_name q \/ de_src d = p_name q /\ de_dst d = p_name p /\ de_dir d = false)).
      { destruct H as [H|[H|H]]; eexists; (split; [exact H|]); cbn; auto. }
      clear H. destruct H' as (d & H & El & K). apply in_edges in H as [(w & Hw & H)|(x & Hx & H)].
      { exfalso. destruct (WE w d Hw H) as (r & Hr & E1 & E2). destruct K as [[A B]|(A & B & _)]; congruence. }
      destruct (part_from x Hx) as (e & s & He & -> & O). exists e. split; auto.
      assert (Own : forall z, In z (su_biclique_edges s) -> (exists r, In r reps /\ fst (fst z) = p_name r) -> (exists r, In r reps /\ fst (snd z) = p_name r) -> False).
      { intros z Hz (r & Hr & Er) (r' & Hr' & Er'). destruct (so_bed _ _ _ O z Hz) as [[_ B]|[B _]]; [apply (not_biclique e s Hx _ r' B); auto|apply (not_biclique e s Hx _ r B); auto]. }
      assert (Ced : forall z, In z (su_clique_edges s) -> (exists r, In r reps /\ fst (fst z) = p_name r) -> (exists r, In r reps /\ fst (snd z) = p_name r) -> node_of (ends e) (fst z) /\ node_of (ends e) (snd z)).
      { intros z Hz (r & Hr & Er) (r' & Hr' & Er'). destruct (so_ced _ _ _ O z Hz) as ([A|A] & [B|B] & _); auto; exfalso; [apply (not_clique e s Hx _ r' B); auto|apply (not_clique e s Hx _ r A); auto|apply (not_clique e s Hx _ r A); auto]. }
      destruct (de_dir d) eqn:Dd.
      * destruct K as [[A B]|(_ & _ & K)]; [|discriminate K]. destruct (dir_edge e s d _ _ H A B Dd) as (z & Hz & E1 & E2 & El'). split; [congruence|]. apply (Hit e s He O).
        apply in_app_or in Hz as [Hz|Hz]; [|destruct (Own z Hz); eauto]. left. destruct (dir_nodes e s O z Hz) as [D1 D2].
        rewrite <- (rep_node e _ p D1 Hp E1), <- (rep_node e _ q D2 Hq E2). destruct z; exact Hz.
      * assert (K' : (de_src d = p_name p /\ de_dst d = p_name q) \/ (de_src d = p_name q /\ de_dst d = p_name p)) by tauto. clear K.
        assert (Z : exists z, In z (su_und s ++ su_clique_edges s) /\ node_of (ends e) (fst z) /\ node_of (ends e) (snd z) /\ de_label d = c_str (fst e) /\ (z = (node p, node q) \/ z = (node q, node p))).
        { destruct K' as [[A B]|[A B]]; destruct (und_edge e s d _ _ H A B Dd) as (z & Hz & E1 & E2 & El'); exists z; (split; [exact Hz|]);
            (assert (D : node_of (ends e) (fst z) /\ node_of (ends e) (snd z)) by (apply in_app_or in Hz as [Hz|Hz]; [apply (und_nodes e s O); auto|apply (Ced z Hz); eauto])); destruct D as [D1 D2];
            (split; [exact D1|split; [exact D2|split; [exact El'|]]]).
          - left. rewrite <- (rep_node e _ p D1 Hp E1), <- (rep_node e _ q D2 Hq E2). destruct z; reflexivity.
          - right. rewrite <- (rep_node e _ q D1 Hq E1), <- (rep_node e _ p D2 Hp E2). destruct z; reflexivity. }
        destruct Z as (z & Hz & _ & _ & El' & Ez). split; [congruence|]. apply (Hit e s He O).
        apply in_app_or in Hz as [Hz|Hz]; [right; left|right; right; right; apply via_edge]; destruct Ez; subst z; [left|right|left|right]; exact Hz.
    + destruct H as (n & (d & Hd & Ek & El & En) & (c1 & H1) & (c2 & H2)). apply in_nodes in Hd as [(w & Hw & Hd)|(x & Hx & Hd)]; [apply (WN w) in Hd; auto; congruence|].
      destruct (part_from x Hx) as (e & s & He & -> & O). cbn [render fst] in Hd. apply in_app_or in Hd as [Hd|Hd]; apply in_map_iff in Hd as (u & <- & Hu); cbn in Ek, El, En; [discriminate Ek|].
      injection El as El. exists e. split; auto. split; auto. apply (Hit e s He O). right. right. left.
      assert (Nd : NoDup (map fst (su_bicliques s))) by (apply (bnumbered_nodup (c_str (fst e))), (so_bn _ _ _ O)).
      assert (Nw : In n (new_names (render (c_str (fst e)) s))) by (rewrite <- En; apply biclique_name; auto).
      apply (edge_in_part _ _ n Hx Nw) in H1; [|right; reflexivity]. apply (edge_in_part _ _ n Hx Nw) in H2; [|left; reflexivity].
      destruct (dir_edge e s _ _ _ H1 eq_refl eq_refl eq_refl) as (z & Hz & E1 & E2 & _). destruct (dir_edge e s _ _ _ H2 eq_refl eq_refl eq_refl) as (z' & Hz' & E1' & E2' & _).
      cbn [de_src de_dst] in E1, E2, E1', E2'. exists u. split; auto. split.
      * apply in_app_or in Hz as [Hz|Hz]; [destruct (dir_nodes e s O z Hz) as [_ A]; destruct (node_not_biclique e s Hx _ u A Hu); congruence|].
        destruct (so_bed _ _ _ O z Hz) as [[A B]|[A B]]; [|destruct (node_not_biclique e s Hx _ u B Hu); congruence].
        rewrite <- (rep_node e _ p A Hp E1). rewrite <- (same_fst _ _ _ Nd B Hu); [|congruence]. destruct z; exact Hz.
      * apply in_app_or in Hz' as [Hz'|Hz']; [destruct (dir_nodes e s O z' Hz') as [A _]; destruct (node_not_biclique e s Hx _ u A Hu); congruence|].
        destruct (so_bed _ _ _ O z' Hz') as [[A B]|[A B]]; [destruct (node_not_biclique e s Hx _ u A Hu); congruence|].
        rewrite <- (rep_node e _ q B Hq E2'). rewrite <- (same_fst _ _ _ Nd A Hu); [|congruence]. destruct z'; exact Hz'.
    + destruct H as (n & (d & Hd & Ek & El & En) & L & V). apply in_nodes in Hd as [(w & Hw & Hd)|(x & Hx & Hd)]; [apply (WN w) in Hd; auto; congruence|].
      destruct (part_from x Hx) as (e & s & He & -> & O). cbn [render fst] in Hd. apply in_app_or in Hd as [Hd|Hd]; apply in_map_iff in Hd as (u & <- & Hu); cbn in Ek, El, En; [|discriminate Ek].
      injection El as El. exists e. split; auto. split; auto. apply (Hit e s He O). right. right. right.
      assert (L' : line g (fst u) (p_name p)) by (rewrite En; destruct L as (c1 & L); exists c1; tauto).
      destruct (clique_line e He s Hx O u (p_name p) Hu L') as (v & E & S & [D|D]); [|destruct (not_clique e s Hx v p D Hp E)].
      rewrite (rep_node e v p D Hp E) in S. apply (via_step _ _ _ u); auto; [destruct S; [right|left]; auto|]. apply (clique_path e He s Hx O c n (p_name q) u q); auto.
  - intros (e & He & <- & H). destruct (part_of e He) as (s & Hx & O). apply (Hit e s He O) in H. set (c := c_str (fst e)) in *.
    assert (Ed : forall d, In d (snd (render c s)) -> In d (g_edges g)) by (intros d Hd; apply in_edges; right; eauto).
    assert (Kc : forall u, In u (su_cliques s) -> of_kind g KClique c (fst u)).
    { intros u Hu. exists (new_node c KClique u). split; [|auto]. apply in_nodes. right. exists (render c s). split; auto. cbn [render fst]. apply in_or_app. left. apply in_map. auto. }
    assert (Kb : forall u, In u (su_bicliques s) -> of_kind g KBiclique c (fst u)).
    { intros u Hu. exists (new_node c KBiclique u). split; [|auto]. apply in_nodes. right. exists (render c s). split; auto. cbn [render fst]. apply in_or_app. right. apply in_map. auto. }
    assert (Dr : forall y, In y (su_dir s ++ su_biclique_edges s) -> In (edge_of c true y) (g_edges g)) by (intros y Hy; apply Ed; cbn [render snd]; apply in_or_app; left; apply in_map; auto).
    assert (Un : forall y, In y (su_und s ++ su_clique_edges s) -> In (edge_of c false y) (g_edges g)) by (intros y Hy; apply Ed; cbn [render snd]; apply in_or_app; right; apply in_map; auto).
    assert (Li : forall u v, sym (su_clique_edges s) u v -> line g (fst u) (fst v)).
    { intros u v [S|S]; exists c; [left|right]; apply (Un (_, _)); apply in_or_app; right; exact S. }
    destruct H as [H|[H|[(u & Hu & H1 & H2)|H]]].
    + left. left. apply (Dr (node p, node q)). apply in_or_app. auto.
    + left. right. destruct H as [H|H]; [left; apply (Un (node p, node q))|right; apply (Un (node q, node p))]; apply in_or_app; auto.
    + right. split; auto. left. exists (fst u). split; [apply Kb; auto|]. split; exists c; [apply (Dr (node p, u))|apply (Dr (u, node q))]; apply in_or_app; auto.
    + assert (Vi : forall u v, via (sym (su_clique_edges s)) (fun u => In u (su_cliques s)) u v -> via (line g) (of_kind g KClique c) (fst u) (fst v)).
      { intros u v V. induction V as [u v S|u r v S K V IH]; [apply via_edge; auto|]. apply (via_step _ _ _ (fst r)); auto. }
      inversion H as [u v S|u r v S K V]; subst u v.
      * left. right. destruct S as [S|S]; [left; apply (Un (node p, node q))|right; apply (Un (node q, node p))]; apply in_or_app; auto.
      * right. split; auto. right. exists (fst r). split; [apply Kc; auto|]. split; [exact (Li _ _ S)|]. exact (Vi _ _ V).
Qed.
(** Edges from a node to itself come from the groups. *)
Lemma self_edge : forall p d, In p reps -> In d (g_edges g) -> de_src d = p_name p -> de_dst d = p_name p -> exists w, In w work /\ In d (snd w).
Proof using PE HR HO HT HN FO CS.
  intros p d Hp H E1 E2. apply in_edges in H as [H|(x & Hx & H)]; [exact H|exfalso]. destruct (part_from x Hx) as (e & s & He & -> & O).
  assert (Nd : forall u, node_of (ends e) u -> fst u = p_name p -> u = node p) by (intros u D E; apply (rep_node e u p D Hp E)).
  assert (Ne : forall y, In y (ends e) -> fst (fst y) = p_name p -> fst (snd y) = p_name p -> False).
  { intros [u v] H1 A B. apply ends_In in H1 as (p1 & p2 & -> & -> & H1 & H2 & N & _). cbn in A, B. apply N, HN; auto. congruence. }
  cbn [render snd] in H. apply in_app_or in H as [H|H]; apply in_map_iff in H as (y & <- & H); cbn [edge_of de_src de_dst] in E1, E2; apply in_app_or in H as [H|H].
  - apply (Ne y); auto. apply (so_dir _ _ _ O). auto.
  - destruct (so_bed _ _ _ O y H) as [[_ B]|[B _]]; apply (not_biclique e s Hx _ p B); auto.
  - apply (Ne y); auto. apply (so_und _ _ _ O). auto.
  - destruct (so_ced _ _ _ O y H) as ([A|A] & [B|B] & N).
    + apply N. rewrite (Nd _ A E1), (Nd _ B E2). reflexivity.
    + apply (not_clique e s Hx _ p B); auto.
    + apply (not_clique e s Hx _ p A); auto.
    + apply (not_clique e s Hx _ p A); auto.
Qed.
End Reps.

(** ** The whole graph *)
Context (HW : forall p q, In p all -> In q all -> p_ns p = p_ns q -> p_text p = p_text q -> p = q).
Context (HK : forall c p q, p <> q -> allowed c_true m c p q -> In p all /\ In q all).
Context (HU : forall p q c1 c2, In p all -> In q all -> p <> q -> p_ns p = p_ns q -> allowed c_true m c1 p q -> allowed c_true m c2 p q -> c_str c1 = c_str c2).
Let dotg := dot_graph p_eqb p_key p_name p_ns p_text c_eqb c_true c_str find all m.
Definition reps_of (gs : list (list P * option C)) : list P := flat_map (fun g => match fst g with p :: _ => [p] | [] => [] end) gs.
Lemma reps_of_In : forall gs p, In p (reps_of gs) <-> exists l o, In (p :: l, o) gs.
Proof using.
  intros gs p. unfold reps_of. rewrite in_flat_map. split.
  - intros ([[|x l] o] & H & K); cbn in K; [destruct K|]. destruct K as [<-|[]]. eauto.
  - intros (l & o & H). exists (p :: l, o). cbn. auto.
Qed.
Definition text_of (l : list P) : list string := match l with [p] => [p_text p] | _ => sorted_set (map p_text l) end.
Lemma text_of_In : forall l t, In t (text_of l) <-> exists p, In p l /\ p_text p = t.
Proof using.
  intros l t. unfold text_of. destruct l as [|p [|q l]]; [cbn; split; [tauto|intros (p & [] & _)]| |].
  - cbn. split; [intros [<-|[]]; eauto|intros (x & [<-|[]] & <-); auto].
  - rewrite sorted_set_In, in_map_iff. split; intros (x & A & B); eauto.
Qed.
Lemma group_part_eq : forall p l o, group_part p_name p_ns p_text c_true c_str (p :: l, o) =
  ([DNode (p_ns p) (p_name p) KWork (text_of (p :: l))],
   match o with Some c => if (1 <? List.length (text_of (p :: l))) && c_true c then [DEdge (p_name p) (p_name p) (c_str c) false] else [] | None => [] end).
Proof using. intros p l o. unfold group_part, text_of. cbn [fst snd]. destruct l; reflexivity. Qed.
Lemma groups_perm_in : forall gs : list (list P * option C), Permutation all (List.concat (map fst gs)) -> forall p, In p all <-> exists g, In g gs /\ In p (fst g).
Proof using.
  intros gs Pm p. split.
  - intros H. apply (Permutation_in _ Pm) in H. apply in_concat in H as (l & Hl & H). apply in_map_iff in Hl as (g & <- & Hg). eauto.
  - intros (g & Hg & H). apply (Permutation_in _ (Permutation_sym Pm)). apply in_concat. exists (fst g). split; auto. apply in_map. auto.
Qed.
Lemma groups_unique : forall gs : list (list P * option C), Permutation all (List.concat (map fst gs)) -> forall g1 g2 p, In g1 gs -> In g2 gs -> In p (fst g1) -> In p (fst g2) -> g1 = g2.
Proof using Nall.
  intros gs Pm g1 g2 p H1 H2 K1 K2. apply (flat_unique _ _ fst gs g1 g2 p); auto. rewrite flat_map_concat_map. apply (Permutation_NoDup Pm). exact Nall.
Qed.
Lemma dot_graph_inv : forall g, dotg = Some g -> exists gs cs, Permutation all (List.concat (map fst gs)) /\ (forall x, In x gs -> group_ok p_ns c_true m x) /\
  mapM (conn_part p_eqb p_name p_ns c_true c_str find (reps_of gs)) m = Some cs /\
  g = Dot (flat_map fst (map (group_part p_name p_ns p_text c_true c_str) gs ++ cs)) (flat_map snd (map (group_part p_name p_ns p_text c_true c_str) gs ++ cs)).
Proof using PE CE Nall.
  intros g E. unfold dotg, dot_graph in E. destruct (groups_of p_eqb p_key p_ns c_eqb c_true all m) as [gs|] eqn:G; [|discriminate E].
  destruct (groups_of_spec p_eqb p_key p_ns c_eqb c_true PE CE all m gs Nall G) as [Pm Ok]. fold (reps_of gs) in E.
  destruct (mapM (conn_part p_eqb p_name p_ns c_true c_str find (reps_of gs)) m) as [cs|] eqn:M; [|discriminate E]. injection E as <-. exists gs, cs. auto.
Qed.
Theorem dot_graph_some : exists g, dotg = Some g.
Proof using PE CE Nall FO HO HT HK.
  unfold dotg, dot_graph. destruct (groups_of p_eqb p_key p_ns c_eqb c_true all m) as [gs|] eqn:G.
  - destruct (groups_of_spec p_eqb p_key p_ns c_eqb c_true PE CE all m gs Nall G) as [Pm Ok]. fold (reps_of gs).
    assert (HR : forall p, In p (reps_of gs) -> In p all).
    { intros p H. apply reps_of_In in H as (l & o & H). apply (groups_perm_in gs Pm). exists (p :: l, o). split; auto. left. auto. }
    destruct (mapM_some _ _ (conn_part p_eqb p_name p_ns c_true c_str find (reps_of gs)) m) as (cs & M); [|rewrite M; eauto].
    intros e He. destruct (conn_part_spec (reps_of gs) HR e He) as (s & E & _). eauto.
  - exfalso. unfold groups_of in G. rewrite (known_spec p_eqb p_key p_ns c_true PE all m HK) in G. discriminate G.
Qed.
Theorem dot_graph_shows : forall g, dotg = Some g -> distinct_new g -> forall p q cs, In p all -> In q all -> p <> q ->
  (shown g cs (p_ns p, p_text p) (p_ns q, p_text q) <-> exists c, c_str c = cs /\ allowed c_true m c p q).
Proof using PE CE Nall FO HN HO HT HW HU.
  intros g E DN p q txt Hp Hq N. destruct (dot_graph_inv g E) as (gs & cs & Pm & Ok & M & Eg). set (reps := reps_of gs) in *. set (work := map (group_part p_name p_ns p_text c_true c_str) gs) in *.
  assert (HR : forall p, In p reps -> In p all).
  { intros x H. apply reps_of_In in H as (l & o & H). apply (groups_perm_in gs Pm). exists (x :: l, o). split; auto. left. auto. }
  assert (WN : forall w d, In w work -> In d (fst w) -> nd_kind d = KWork).
  { intros w d Hw Hd. apply in_map_iff in Hw as ([[|x l] o] & <- & _); [destruct Hd|]. rewrite group_part_eq in Hd. destruct Hd as [<-|[]]. reflexivity. }
  assert (WE : forall w d, In w work -> In d (snd w) -> exists p, In p reps /\ de_src d = p_name p /\ de_dst d = p_name p).
  { intros w d Hw Hd. apply in_map_iff in Hw as ([[|x l] o] & <- & Hg); [destruct Hd|]. rewrite group_part_eq in Hd. cbn [snd] in Hd. destruct o as [c|]; [|destruct Hd].
    destruct ((1 <? List.length (text_of (x :: l))) && c_true c); [|destruct Hd]. destruct Hd as [<-|[]]. exists x. split; [apply reps_of_In; eauto|auto]. }
  assert (DN' : distinct_new (Dot (flat_map fst (work ++ cs)) (flat_map snd (work ++ cs)))) by (rewrite Eg in DN; exact DN).
  (* where a workload is written *)
  assert (Wr : forall x n, In x all -> (written_in g (p_ns x, p_text x) n <-> exists r l o, In (r :: l, o) gs /\ In x (r :: l) /\ n = p_name r)).
  { intros x n Hx. unfold written_in. rewrite Eg. split.
    - intros (d & Hd & K & S & T & <-). apply (in_nodes work cs) in Hd as [(w & Hw & Hd)|(y & Hy & Hd)].
      + apply in_map_iff in Hw as ([[|r l] o] & <- & Hg); [destruct Hd|]. rewrite group_part_eq in Hd. destruct Hd as [<-|[]]. cbn [nd_sub nd_label nd_name fst snd] in *.
        exists r, l, o. split; auto. split; auto. apply text_of_In in T as (z & Hz & Ez). replace x with z; auto. apply HW; auto; [apply (groups_perm_in gs Pm); exists (r :: l, o); auto|].
        rewrite <- S. apply (go_ns _ _ _ _ (Ok _ Hg)); cbn [fst]; auto. left. auto.
      + exfalso. destruct (part_from reps HR cs M y Hy) as (e & s & _ & -> & _). cbn [render fst] in Hd. apply in_app_or in Hd as [Hd|Hd]; apply in_map_iff in Hd as (u & <- & _); discriminate K.
    - intros (r & l & o & Hg & Hin & ->). exists (DNode (p_ns r) (p_name r) KWork (text_of (r :: l))). cbn [nd_sub nd_label nd_name nd_kind fst snd].
      split; [apply (in_nodes work cs); left; exists (group_part p_name p_ns p_text c_true c_str (r :: l, o)); split; [apply in_map; auto|rewrite group_part_eq; left; auto]|].
      split; auto. split; [apply (go_ns _ _ _ _ (Ok _ Hg)); cbn [fst]; auto; left; auto|]. split; auto. apply text_of_In. eauto. }
  destruct (proj1 (groups_perm_in gs Pm p) Hp) as ([[|r1 l1] o1] & G1 & P1); [destruct P1|]. destruct (proj1 (groups_perm_in gs Pm q) Hq) as ([[|r2 l2] o2] & G2 & P2); [destruct P2|]. cbn [fst] in P1, P2.
  assert (R1 : In r1 reps) by (apply reps_of_In; eauto). assert (R2 : In r2 reps) by (apply reps_of_In; eauto).
  assert (Sh : shown g txt (p_ns p, p_text p) (p_ns q, p_text q) <-> joins g txt (p_name r1) (p_name r2)).
  { unfold shown. split.
    - intros (a & b & A & B & J). apply (Wr p a Hp) in A as (r & l & o & Hg & Hin & ->). apply (Wr q b Hq) in B as (r' & l' & o' & Hg' & Hin' & ->).
      pose proof (groups_unique gs Pm _ _ p Hg G1 Hin P1) as X. pose proof (groups_unique gs Pm _ _ q Hg' G2 Hin' P2) as Y. injection X as -> _ _. injection Y as -> _ _. exact J.
    - intros J. exists (p_name r1), (p_name r2). split; [apply (Wr p); eauto 6|]. split; [apply (Wr q); eauto 6|exact J]. }
  rewrite Sh. clear Sh Wr. destruct (p_dec p_eqb PE r1 r2) as [<-|Nr].
  - (* one group *)
    assert (X : (r1 :: l1, o1) = (r1 :: l2, o2)) by (apply (groups_unique gs Pm _ _ r1 G1 G2); left; auto). injection X as <- <-.
    destruct (Ok _ G1) as [_ Ns _ In_]. cbn [fst snd] in Ns, In_.
    assert (J : joins g txt (p_name r1) (p_name r1) <-> exists c, o1 = Some c /\ c_str c = txt /\ (1 <? List.length (text_of (r1 :: l1))) = true /\ c_true c = true).
    { split.
      - intros [H|[H _]]; [|congruence]. assert (D : exists d, In d (g_edges g) /\ de_src d = p_name r1 /\ de_dst d = p_name r1 /\ de_label d = txt) by (destruct H as [H|[H|H]]; eexists; (split; [exact H|auto])).
        destruct D as (d & Hd & E1 & E2 & E3). rewrite Eg in Hd. destruct (self_edge reps HR work cs M r1 d R1 Hd E1 E2) as (w & Hw & Kd).
        apply in_map_iff in Hw as ([[|x l] o] & <- & Hg); [destruct Kd|]. rewrite group_part_eq in Kd. cbn [snd] in Kd. destruct o as [c|]; [|destruct Kd].
        destruct ((1 <? List.length (text_of (x :: l))) && c_true c) eqn:B; [|destruct Kd]. destruct Kd as [<-|[]]. cbn [de_src de_dst de_label] in E1, E3. apply andb_true_iff in B as [B1 B2].
        assert (x = r1) by (apply HN; auto; apply HR, reps_of_In; eauto). subst x.
        assert (X : (r1 :: l, Some c) = (r1 :: l1, o1)) by (apply (groups_unique gs Pm _ _ r1 Hg G1); left; auto). injection X as -> <-. eauto.
      - intros (c & -> & <- & B1 & B2). left. right. left. rewrite Eg. apply (in_edges work cs). left. exists (group_part p_name p_ns p_text c_true c_str (r1 :: l1, Some c)). split; [apply in_map; auto|].
        rewrite group_part_eq. cbn [snd]. rewrite B1, B2. left. auto. }
    rewrite J. clear J. split.
    + intros (c & Eo & Et & _ & _). destruct In_ as [[X _]|(c' & a & b & X & Ha & Hb & Nab & A & Co)]; [congruence|]. assert (c' = c) by congruence. subst c'.
      exists c. split; auto. apply (Co a b p q c); auto.
    + intros (c & Et & A). destruct In_ as [[_ X]|(c' & a & b & X & Ha & Hb & Nab & A' & Co)]; [destruct (X p q c); auto|].
      assert (A2 : allowed c_true m c' p q) by (apply (Co a b p q c'); auto). exists c'. split; auto.
      split; [rewrite <- Et; apply (HU p q c' c); auto|]. split; [|destruct A' as (k & _ & T & _); exact T].
      apply Nat.ltb_lt. assert (I1 : In (p_text p) (text_of (r1 :: l1))) by (apply text_of_In; eauto). assert (I2 : In (p_text q) (text_of (r1 :: l1))) by (apply text_of_In; eauto).
      assert (Nt : p_text p <> p_text q) by (intros Y; apply N, HW; auto). destruct (text_of (r1 :: l1)) as [|t1 [|t2 t]]; cbn in I1, I2 |- *; [destruct I1| |lia].
      destruct I1 as [I1|[]], I2 as [I2|[]]. congruence.
  - (* two groups *)
    assert (Nin : forall x, In x (r1 :: l1) -> ~ In x (r2 :: l2)) by (intros x A B; pose proof (groups_unique gs Pm _ _ x G1 G2 A B) as X; injection X as X _ _; congruence).
    pose proof (joins_reps reps HR work cs WN WE M DN' txt r1 r2 R1 R2 Nr) as J. rewrite Eg. refine (iff_trans J _). clear J.
    assert (Al : forall c, allowed c_true m c p q <-> allowed c_true m c r1 r2).
    { intros c. pose proof (go_alike _ _ _ _ (Ok _ G1) p r1 q c P1 (or_introl eq_refl) (fun H => Nin q H P2)) as [A _].
      pose proof (go_alike _ _ _ _ (Ok _ G2) q r2 r1 c P2 (or_introl eq_refl) (Nin r1 (or_introl eq_refl))) as [_ B]. exact (iff_trans A B). }
    split.
    + intros ([c l] & He & Ec & H). apply (ends_nodes reps HR) in H as (_ & T & H); auto. exists c. split; auto. apply Al. exists l. auto.
    + intros (c & Ec & A). apply Al in A as (l & He & T & H). exists (c, l). split; auto. split; auto. apply (ends_nodes reps HR); auto.
Qed.
(** The ends of an edge are nodes (DotGraph.py:97-98 raises KeyError otherwise). *)
Theorem dot_graph_ends : forall g, dotg = Some g -> forall d, In d (g_edges g) ->
  (exists n, In n (g_nodes g) /\ nd_name n = de_src d) /\ (exists n, In n (g_nodes g) /\ nd_name n = de_dst d).
Proof using PE CE Nall FO HO HT.
  intros g E d Hd. destruct (dot_graph_inv g E) as (gs & cs & Pm & Ok & M & Eg). set (reps := reps_of gs) in *. set (work := map (group_part p_name p_ns p_text c_true c_str) gs) in *.
  assert (HR : forall p, In p reps -> In p all).
  { intros x H. apply reps_of_In in H as (l & o & H). apply (groups_perm_in gs Pm). exists (x :: l, o). split; auto. left. auto. }
  assert (Rn : forall p, In p reps -> exists n, In n (g_nodes g) /\ nd_name n = p_name p).
  { intros p H. apply reps_of_In in H as (l & o & H). exists (DNode (p_ns p) (p_name p) KWork (text_of (p :: l))). split; auto. rewrite Eg. apply (in_nodes work cs). left.
    exists (group_part p_name p_ns p_text c_true c_str (p :: l, o)). split; [apply in_map; auto|]. rewrite group_part_eq. left. auto. }
  assert (G : forall n, de_src d = n \/ de_dst d = n -> exists k, In k (g_nodes g) /\ nd_name k = n); [|split; apply G; auto].
  intros n En. rewrite Eg in Hd. apply (in_edges work cs) in Hd as [(w & Hw & Hd)|(x & Hx & Hd)].
  - apply in_map_iff in Hw as ([[|x l] o] & <- & Hg); [destruct Hd|]. rewrite group_part_eq in Hd. cbn [snd] in Hd. destruct o as [c|]; [|destruct Hd].
    destruct ((1 <? List.length (text_of (x :: l))) && c_true c); [|destruct Hd]. destruct Hd as [<-|[]]. cbn [de_src de_dst] in En.
    replace n with (p_name x) by (destruct En; auto). apply Rn. apply reps_of_In. eauto.
  - destruct (part_ends reps HR cs M x d n Hx Hd En) as [(p & Hp & <-)|H]; [apply Rn; auto|]. apply in_map_iff in H as (k & K & H). exists k. split; auto. rewrite Eg. apply (in_nodes work cs). right. eauto.
Qed.
End Dot.
