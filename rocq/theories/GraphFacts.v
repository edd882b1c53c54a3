(** * Facts about the summarisation of one connection set by cliques and bicliques. *)
From Coq Require Import ZArith List Bool Arith Lia String Ascii.
From Verif Require Import TextModel TextFacts PortProtoModel GraphModel.
From Verif Require TopologyFacts.
Import ListNotations.
Local Open Scope string_scope.
Local Open Scope list_scope.
Local Open Scope nat_scope.

(** ** Specification of the reading of a summary *)
Definition sym {X} (l : list (X * X)) (u v : X) : Prop := In (u, v) l \/ In (v, u) l.
(** A path all of whose inner nodes satisfy [mid]. *)
Inductive via {X} (adj : X -> X -> Prop) (mid : X -> Prop) : X -> X -> Prop :=
| via_edge : forall u v, adj u v -> via adj mid u v
| via_step : forall u q v, adj u q -> mid q -> via adj mid q v -> via adj mid u v.
(** networkx: the members of a clique are distinct and pairwise adjacent. *)
Definition finder_ok (find : finder) : Prop :=
  forall g c, In c (find g) -> NoDup c /\ forall u v, In u c -> In v c -> u <> v -> sym g u v.
Definition starts (p s : string) : bool := String.prefix p s.
(** Names of peers do not look like those of the new nodes. *)
Definition own_name (u : gnode) : Prop := starts "clique_" (fst u) = false /\ starts "biclique_" (fst u) = false.
(** The ends of the edges. *)
Definition node_of (l : list gedge) (u : gnode) : Prop := exists e, In e l /\ (u = fst e \/ u = snd e).
(** The text of the connections does not start with a digit. *)
Definition text_ok (conn : string) : Prop := match conn with String c _ => is_digit c = false | EmptyString => True end.

(** ** Basics *)
Lemma nodup_disjoint : forall X (l m : list X) x, NoDup (l ++ m) -> In x l -> In x m -> False.
Proof.
  intros X l m x N H K. induction l as [|y l IH]; [destruct H|]. cbn in N. apply NoDup_cons_iff in N as [A B]. destruct H as [->|H]; [apply A; apply in_or_app; auto|auto].
Qed.
Lemma gnode_eqb_spec : forall a b, gnode_eqb a b = true <-> a = b.
Proof. intros [a1 a2] [b1 b2]. unfold gnode_eqb. cbn. rewrite andb_true_iff, !String.eqb_eq. split; [intros [-> ->]; auto|intros E; injection E; auto]. Qed.
Lemma gedge_eqb_spec : forall a b, gedge_eqb a b = true <-> a = b.
Proof. intros [a1 a2] [b1 b2]. unfold gedge_eqb. cbn [fst snd]. rewrite andb_true_iff, !gnode_eqb_spec. split; [intros [-> ->]; auto|intros E; injection E; auto]. Qed.
Lemma emem_spec : forall e l, emem e l = true <-> In e l.
Proof. intros e l. unfold emem. rewrite existsb_exists. split; [intros (x & H & E); apply gedge_eqb_spec in E; subst; auto|intros H; exists e; split; auto; apply gedge_eqb_spec; auto]. Qed.
Lemma nmem_spec : forall e l, nmem e l = true <-> In e l.
Proof. intros e l. unfold nmem. rewrite existsb_exists. split; [intros (x & H & E); apply gnode_eqb_spec in E; subst; auto|intros H; exists e; split; auto; apply gnode_eqb_spec; auto]. Qed.
Lemma gnode_dec : forall a b : gnode, a = b \/ a <> b.
Proof. intros a b. destruct (gnode_eqb a b) eqn:E; [left; apply gnode_eqb_spec, E|right; intros H; apply gnode_eqb_spec in H; congruence]. Qed.
Lemma ediff_In : forall e l m, In e (ediff l m) <-> In e l /\ ~ In e m.
Proof. intros e l m. unfold ediff. rewrite filter_In, negb_true_iff. destruct (emem e m) eqn:E; [apply emem_spec in E; intuition congruence|]. assert (~ In e m) by (intros H; apply emem_spec in H; congruence). tauto. Qed.
Lemma nodes_set_In : forall l n, In n (nodes_set l) <-> In n l.
Proof.
  intros l n. unfold nodes_set. assert (G : forall acc, In n (fold_left (fun r n => if nmem n r then r else r ++ [n]) l acc) <-> In n acc \/ In n l); [|rewrite G; cbn; tauto].
  induction l as [|x l IH]; intros acc; cbn [fold_left]; [cbn; tauto|]. rewrite IH. destruct (nmem x acc) eqn:E; [apply nmem_spec in E|rewrite in_app_iff]; cbn [In]; split; intuition (subst; auto).
Qed.
Lemma pairs_of_In : forall X Y (l : list X) (m : list Y) x y, In (x, y) (pairs_of l m) <-> In x l /\ In y m.
Proof.
  intros X Y l m x y. unfold pairs_of. rewrite in_flat_map. split.
  - intros (a & Ha & H). apply in_map_iff in H as (b & E & Hb). injection E as -> ->. auto.
  - intros [Hx Hy]. exists x. split; auto. apply in_map_iff. eauto.
Qed.
Lemma str_lt_total : forall a b, str_lt a b = true \/ str_lt b a = true \/ a = b.
Proof.
  intros a b. unfold str_lt. rewrite (String.compare_antisym b a). destruct (String.compare a b) eqn:E; cbn; auto. right. right. apply String.compare_eq_iff. exact E.
Qed.
Lemma str_lt_irrefl : forall a, str_lt a a = false.
Proof. intros a. unfold str_lt. pose proof (String.compare_antisym a a) as H. destruct (String.compare a a); auto. discriminate. Qed.
Lemma node_lt_total : forall a b, a <> b -> node_lt a b = true \/ node_lt b a = true.
Proof.
  intros [a1 a2] [b1 b2] N. unfold node_lt. cbn [fst snd]. destruct (str_lt_total a1 b1) as [H|[H| ->]]; [rewrite H; auto|rewrite H; auto|].
  rewrite String.eqb_refl. destruct (str_lt_total a2 b2) as [H|[H| ->]]; [rewrite H|rewrite H|congruence]; rewrite ?orb_true_r; auto.
Qed.
Lemma node_lt_irrefl : forall a, node_lt a a = false.
Proof. intros [a1 a2]. unfold node_lt. cbn. rewrite !str_lt_irrefl. rewrite andb_false_r. auto. Qed.
Lemma insert_str_In : forall s l x, In x (insert_str s l) <-> x = s \/ In x l.
Proof.
  intros s l x. induction l as [|y l IH]; cbn [insert_str]; [cbn; intuition|]. destruct (String.eqb_spec s y) as [->|N]; [cbn; intuition|].
  destruct (str_lt s y); cbn [In]; [intuition|rewrite IH; intuition].
Qed.
Lemma sorted_set_In : forall l x, In x (sorted_set l) <-> In x l.
Proof. intros l x. induction l as [|y l IH]; cbn [sorted_set fold_right]; [tauto|]. rewrite insert_str_In. change (fold_right insert_str [] l) with (sorted_set l). rewrite IH. cbn. intuition. Qed.
Lemma str_lt_trans : forall a b c, str_lt a b = true -> str_lt b c = true -> str_lt a c = true.
Proof.
  intros a b c H K. unfold str_lt in *. destruct (String.compare a b) eqn:E1; try discriminate. destruct (String.compare b c) eqn:E2; try discriminate.
  rewrite (TopologyFacts.compare_lt_trans a b c E1 E2). reflexivity.
Qed.
Inductive ascending : list string -> Prop :=
| asc_nil : ascending []
| asc_cons : forall x l, (forall y, In y l -> str_lt x y = true) -> ascending l -> ascending (x :: l).
Lemma insert_str_ascending : forall s l, ascending l -> ascending (insert_str s l).
Proof.
  intros s l H. induction H as [|x l H A IH]; cbn [insert_str]; [constructor; [intros y []|constructor]|].
  destruct (String.eqb_spec s x) as [->|N]; [constructor; auto|]. destruct (str_lt s x) eqn:E.
  - constructor; [|constructor; auto]. intros y [<-|Hy]; [exact E|apply (str_lt_trans s x y); auto].
  - constructor; [|exact IH]. intros y Hy. apply insert_str_In in Hy as [->|Hy]; [|auto]. destruct (str_lt_total s x) as [K|[K|K]]; congruence.
Qed.
Lemma sorted_set_nodup : forall l, NoDup (sorted_set l).
Proof.
  intros l. assert (A : ascending (sorted_set l)) by (induction l as [|x l IH]; cbn [sorted_set fold_right]; [constructor|apply insert_str_ascending; exact IH]).
  induction A as [|x k H A IH]; constructor; auto. intros X. apply H in X. rewrite str_lt_irrefl in X. discriminate.
Qed.

(** ** reformat_graph *)
Lemma reformat_undirected : forall dir und' dir' u v, reformat [] dir true = (und', dir') -> u <> v -> (In (u, v) dir <-> In (u, v) dir' \/ sym und' u v).
Proof.
  intros dir und' dir' u v E N. unfold reformat in E. injection E as <- <-. rewrite app_nil_r.
  assert (B : forall x y, In (x, y) (filter (fun e => emem (flip e) dir) dir) <-> In (x, y) dir /\ In (y, x) dir) by (intros x y; rewrite filter_In, emem_spec; reflexivity).
  assert (S : forall x y, In (x, y) (filter (fun e => node_lt (snd e) (fst e)) (filter (fun e => emem (flip e) dir) dir)) <-> In (x, y) dir /\ In (y, x) dir /\ node_lt y x = true)
    by (intros x y; rewrite filter_In, B; cbn [fst snd]; tauto).
  unfold sym. rewrite ediff_In, B, !S. destruct (node_lt_total u v N) as [H|H]; rewrite H.
  - split.
    + intros H1. destruct (emem (v, u) dir) eqn:M; [apply emem_spec in M; tauto|]. left. split; auto. intros [_ X]. apply emem_spec in X. congruence.
    + tauto.
  - split.
    + intros H1. destruct (emem (v, u) dir) eqn:M; [apply emem_spec in M; tauto|]. left. split; auto. intros [_ X]. apply emem_spec in X. congruence.
    + tauto.
Qed.
Lemma reformat_und_incl : forall dir und' dir' e, reformat [] dir true = (und', dir') -> In e und' -> In e dir /\ In (flip e) dir /\ fst e <> snd e.
Proof.
  intros dir und' dir' [u v] E H. unfold reformat in E. injection E as <- <-. rewrite app_nil_r in H. apply filter_In in H as [H L]. apply filter_In in H as [H F]. apply emem_spec in F.
  split; auto. split; auto. cbn in L |- *. intros ->. rewrite node_lt_irrefl in L. discriminate.
Qed.
Lemma reformat_dir_incl : forall dir und' dir' e, reformat [] dir true = (und', dir') -> In e dir' -> In e dir.
Proof. intros dir und' dir' e E H. unfold reformat in E. injection E as <- <-. apply ediff_In in H. apply H. Qed.
Lemma reformat_directed : forall und dir u v, In (u, v) (snd (reformat und dir false)) <-> In (u, v) dir \/ sym und u v.
Proof.
  intros und dir u v. cbn [reformat snd]. rewrite !in_app_iff. unfold sym. assert (F : In (u, v) (map flip und) <-> In (v, u) und); [|tauto].
  rewrite in_map_iff. split; [intros ([a b] & E & H); injection E as -> ->; auto|intros H; exists (v, u); auto].
Qed.

(** ** Paths *)
Lemma via_trans : forall X (adj : X -> X -> Prop) mid u q v, via adj mid u q -> mid q -> via adj mid q v -> via adj mid u v.
Proof. intros X adj mid u q v H. induction H as [u q A|u r q A M H IH]; intros Mq K; [eapply via_step; eauto|]. apply (via_step _ _ _ r); auto. Qed.
Lemma via_mono : forall X (adj adj' : X -> X -> Prop) (mid mid' : X -> Prop) u v, (forall x y, adj x y -> adj' x y) -> (forall x, mid x -> mid' x) -> via adj mid u v -> via adj' mid' u v.
Proof. intros X adj adj' mid mid' u v HA HM H. induction H as [u v A|u q v A M H IH]; [apply via_edge; auto|eapply via_step; eauto]. Qed.

(** ** Names of new nodes *)
Lemma str_nat_inj : forall i j, str_nat i = str_nat j -> i = j.
Proof. intros i j H. apply str_of_Z_inj in H. lia. Qed.
Lemma app_inj : forall a b c : string, (a ++ b = a ++ c)%string -> b = c.
Proof. induction a as [|x a IH]; intros b c H; cbn in H; [auto|]. injection H as H. auto. Qed.
Lemma prefix_app : forall p s, starts p (p ++ s)%string = true.
Proof. induction p as [|c p IH]; intros s; cbn; [destruct s; auto|]. destruct (ascii_dec c c); [apply IH|congruence]. Qed.
Lemma digits_first : forall c s n, str_nat n = String c s -> is_digit c = true.
Proof.
  intros c s n E. unfold str_nat in E. destruct (str_of_Z_digits (Z.of_nat n) ltac:(lia)) as [D _]. rewrite E in D. cbn in D. apply andb_true_iff in D as [D _]. exact D.
Qed.
(** The number of a node is its position. *)
Definition numbered (conn : string) (nodes : list gnode) : Prop :=
  forall i q, nth_error nodes i = Some q -> fst q = ("clique_" ++ str_nat i)%string \/ fst q = ("clique_" ++ conn ++ str_nat i)%string.
Lemma numbered_app : forall conn nodes q, numbered conn nodes ->
  fst q = ("clique_" ++ str_nat (List.length nodes))%string \/ fst q = ("clique_" ++ conn ++ str_nat (List.length nodes))%string -> numbered conn (nodes ++ [q]).
Proof.
  intros conn nodes q N H i x E. destruct (Nat.lt_ge_cases i (List.length nodes)) as [L|G]; [rewrite nth_error_app1 in E by auto; apply N; auto|].
  rewrite nth_error_app2 in E by auto. destruct (i - List.length nodes) as [|k] eqn:D; [|destruct k; discriminate]. assert (i = List.length nodes) by lia. subst i. injection E as <-. exact H.
Qed.
Lemma numbered_inj : forall conn nodes i j p q, text_ok conn -> numbered conn nodes -> nth_error nodes i = Some p -> nth_error nodes j = Some q -> fst p = fst q -> i = j.
Proof.
  intros conn nodes i j p q T N Hi Hj E.
  assert (X : forall a b, str_nat a = (conn ++ str_nat b)%string -> a = b).
  { intros a b H. destruct conn as [|c s]; [apply str_nat_inj; exact H|]. cbn [String.append] in H. apply digits_first in H. cbn in T. congruence. }
  destruct (N i p Hi) as [Ep|Ep], (N j q Hj) as [Eq|Eq]; rewrite Ep, Eq in E; apply app_inj in E.
  - apply str_nat_inj; auto.
  - apply X; auto.
  - symmetry. apply X. auto.
  - apply app_inj in E. apply str_nat_inj; auto.
Qed.
Lemma numbered_nodup : forall conn nodes, text_ok conn -> numbered conn nodes -> NoDup (map fst nodes).
Proof.
  intros conn nodes T N. apply NoDup_nth_error. intros i j Hi E. rewrite map_length in Hi.
  assert (M : forall k, nth_error (map fst nodes) k = option_map fst (nth_error (A:=gnode) nodes k)) by (intros k; apply nth_error_map).
  pose proof (eq_trans (eq_sym (M i)) (eq_trans E (M j))) as E2. clear E M.
  destruct (nth_error (A:=gnode) nodes i) as [p|] eqn:Ei; [|apply nth_error_None in Ei; unfold gnode in *; lia].
  destruct (nth_error (A:=gnode) nodes j) as [q|] eqn:Ej; cbn [option_map] in E2; [|discriminate E2]. injection E2 as E2.
  apply (numbered_inj conn nodes i j p q); auto.
Qed.
Lemma numbered_fresh : forall conn nodes q, numbered conn nodes -> In q nodes -> ~ own_name q.
Proof.
  intros conn nodes q N H [O _]. apply In_nth_error in H as (i & H). destruct (N i q H) as [E|E]; rewrite E in O; rewrite prefix_app in O; discriminate.
Qed.

(** ** Cliques *)
Section Clique.
Context (conn : string) (TK : text_ok conn).
(** What the loop over namespaces has added to the nodes and edges it started with. *)
Record ns_inv (clique : list gnode) (nodes0 : list gnode) (edges0 : list gedge) (seen : list string) (nodes : list gnode) (edges : list gedge) (reps : list gnode) : Prop := {
  ni_nodes : exists new, nodes = nodes0 ++ new /\ (forall q, In q new -> In q reps) /\ forall r, In r reps -> In r new \/ In r clique;
  ni_edges : exists es, edges = edges0 ++ es /\ forall e, In e es -> In (fst e) reps /\ ~ own_name (fst e) /\ In (snd e) clique;
  ni_rep : forall u, In u clique -> In (snd u) seen -> exists r, In r reps /\ (r = u \/ In (r, u) edges /\ ~ own_name r);
  ni_num : numbered conn nodes
}.
Lemma ns_fold : forall clique nss nodes0 edges0 seen nodes edges reps nodes' edges' reps', ns_inv clique nodes0 edges0 seen nodes edges reps ->
  fold_left (ns_step clique) nss (nodes, edges, reps) = (nodes', edges', reps') -> ns_inv clique nodes0 edges0 (seen ++ nss) nodes' edges' reps'.
Proof using.
  intros clique nss. induction nss as [|n nss IH]; intros nodes0 edges0 seen nodes edges reps nodes' edges' reps' I E; cbn [fold_left] in E.
  - injection E as <- <- <-. rewrite app_nil_r. exact I.
  - replace (seen ++ n :: nss) with ((seen ++ [n]) ++ nss) by (rewrite <- app_assoc; auto).
    destruct (ns_step clique (nodes, edges, reps) n) as [[nodes1 edges1] reps1] eqn:S. apply (IH nodes0 edges0 (seen ++ [n]) nodes1 edges1 reps1); [|exact E]. clear E IH nodes' edges' reps'.
    destruct I as [(new & En & N1 & N2) (es & Ee & Es) R Nu]. unfold ns_step in S.
    assert (FI : forall u, In u (filter (fun p => String.eqb (snd p) n) clique) <-> In u clique /\ snd u = n) by (intros u; rewrite filter_In, String.eqb_eq; tauto).
    destruct (filter (fun p => String.eqb (snd p) n) clique) as [|p [|p' ps]] eqn:F.
    + injection S as <- <- <-. constructor; eauto. intros u Hu Hs. apply in_app_or in Hs as [Hs|[Hs|[]]]; [apply R; auto|]. assert (X : In u []) by (apply FI; auto). destruct X.
    + injection S as <- <- <-. constructor; auto.
      * exists new. split; auto. split; [intros q Hq; apply in_or_app; auto|]. intros r Hr. apply in_app_or in Hr as [Hr|[<-|[]]]; [auto|]. right. apply FI. left. auto.
      * exists es. split; auto. intros e He. destruct (Es e He) as (A & B & D). split; [apply in_or_app; auto|auto].
      * intros u Hu Hs. apply in_app_or in Hs as [Hs|[Hs|[]]]; [destruct (R u Hu Hs) as (r & Hr & D); exists r; split; [apply in_or_app; auto|auto]|].
        assert (X : In u [p]) by (apply FI; auto). destruct X as [<-|[]]. exists p. split; [apply in_or_app; right; left; auto|auto].
    + set (q := (("clique_" ++ str_nat (List.length nodes))%string, n)) in *. assert (Fq : ~ own_name q) by (intros [O _]; unfold q in O; cbn [fst] in O; rewrite prefix_app in O; discriminate).
      injection S as <- <- <-. change ((q, p) :: (q, p') :: map (fun p => (q, p)) ps) with (map (fun p => (q, p)) (p :: p' :: ps)).
      assert (M : forall e, In e (map (fun p => (q, p)) (p :: p' :: ps)) <-> fst e = q /\ In (snd e) clique /\ snd (snd e) = n).
      { intros [a b]. rewrite in_map_iff. cbn [fst snd]. split; [intros (x & X & Hx); injection X as <- <-; split; auto; apply FI; auto|intros (-> & H); exists b; split; auto; apply FI; auto]. }
      constructor.
      * exists (new ++ [q]). split; [rewrite En, app_assoc; auto|]. split; [intros r Hr; apply in_app_or in Hr as [Hr|[<-|[]]]; apply in_or_app; [left; auto|right; left; auto]|].
        intros r Hr. apply in_app_or in Hr as [Hr|[<-|[]]]; [destruct (N2 r Hr); auto; left; apply in_or_app; auto|left; apply in_or_app; right; left; auto].
      * exists (es ++ map (fun p => (q, p)) (p :: p' :: ps)). split; [rewrite Ee, app_assoc; auto|]. intros e He. apply in_app_or in He as [He|He].
        -- destruct (Es e He) as (A & B & D). split; [apply in_or_app; auto|auto].
        -- apply M in He as (A & B & _). destruct e as [ea eb]. cbn [fst snd] in A, B |- *. subst ea. split; [apply in_or_app; right; left; auto|auto].
      * intros u Hu Hs. apply in_app_or in Hs as [Hs|[Hs|[]]].
        -- destruct (R u Hu Hs) as (r & Hr & D). exists r. split; [apply in_or_app; auto|]. destruct D as [D|[D1 D2]]; [auto|right; split; [apply in_or_app; auto|auto]].
        -- exists q. split; [apply in_or_app; right; left; auto|]. right. split; [|exact Fq]. apply in_or_app. right. apply M. auto.
      * apply numbered_app; [exact Nu|left; reflexivity].
Qed.
(** The representatives of a clique are in distinct namespaces. *)
Lemma reps_ns : forall clique nss nodes edges reps nodes' edges' reps', fold_left (ns_step clique) nss (nodes, edges, reps) = (nodes', edges', reps') -> NoDup nss ->
  exists l, map snd reps' = map snd reps ++ l /\ NoDup l /\ forall x, In x l -> In x nss.
Proof using.
  intros clique nss. induction nss as [|n nss IH]; intros nodes edges reps nodes' edges' reps' E N; cbn [fold_left] in E.
  - injection E as <- <- <-. exists []. rewrite app_nil_r. split; [auto|split; [constructor|auto]].
  - apply NoDup_cons_iff in N as [Nn N]. destruct (ns_step clique (nodes, edges, reps) n) as [[nodes1 edges1] reps1] eqn:S. destruct (IH _ _ _ _ _ _ E N) as (l & El & Nl & Il).
    assert (R : reps1 = reps \/ exists r, reps1 = reps ++ [r] /\ snd r = n).
    { unfold ns_step in S. destruct (filter (fun p => String.eqb (snd p) n) clique) as [|p ps] eqn:F; [injection S as <- <- <-; auto|].
      assert (Sp : snd p = n) by (assert (X : In p (filter (fun p => String.eqb (snd p) n) clique)) by (rewrite F; left; auto); apply filter_In in X as [_ X]; apply String.eqb_eq in X; exact X).
      right. destruct ps; injection S as <- <- <-; eexists; split; [reflexivity|exact Sp|reflexivity|reflexivity]. }
    destruct R as [->|(r & -> & Sr)]; [exists l; split; auto; split; auto; intros x Hx; right; auto|].
    exists (n :: l). rewrite El, map_app. cbn [map]. rewrite Sr, <- app_assoc. split; auto. split; [constructor; auto|]. intros x [<-|Hx]; [left; auto|right; auto].
Qed.
(** One clique: what is added, and that its members are joined. *)
Lemma clique_step_spec : forall und edges nodes clique und' edges' nodes', (forall u, In u clique -> own_name u) -> numbered conn nodes ->
  clique_step conn (und, edges, nodes) clique = (und', edges', nodes') -> List.length clique >= 4 ->
  (exists new, nodes' = nodes ++ new /\ exists es, edges' = edges ++ es /\ forall e, In e es -> (In (fst e) clique \/ In (fst e) new) /\ (In (snd e) clique \/ In (snd e) new) /\ fst e <> snd e) /\
  numbered conn nodes' /\ (forall u v, In (u, v) und' <-> In (u, v) und /\ ~ (In u clique /\ In v clique)) /\
  (forall u v, In u clique -> In v clique -> u <> v -> via (sym edges') (fun q => In q nodes') u v).
Proof using TK.
  intros und edges nodes clique und' edges' nodes' Own Nu E L. unfold clique_step in E. destruct (Nat.ltb_spec (List.length clique) 4) as [X|_]; [lia|].
  destruct (fold_left (ns_step clique) (sorted_set (map snd clique)) (nodes, edges, [])) as [[n1 e1] reps] eqn:F.
  assert (I0 : ns_inv clique nodes edges [] nodes edges []).
  { constructor; auto; [exists []; rewrite app_nil_r; split; auto; split; intros ? []|exists []; rewrite app_nil_r; split; auto; intros ? []|intros u _ []]. }
  pose proof (ns_fold clique _ _ _ _ _ _ _ _ _ _ I0 F) as [(new & En & N1 & N2) (es & Ee & Es) R Nu1]. cbn [app] in R.
  assert (R' : forall u, In u clique -> exists r, In r reps /\ (r = u \/ In (r, u) e1 /\ ~ own_name r)).
  { intros u Hu. apply R; auto. apply sorted_set_In. apply in_map. exact Hu. }
  set (jr := join_reps conn (n1, e1, reps)) in *. cbv zeta in E. injection E as <- <- <-.
  assert (UE : forall u v, In (u, v) (ediff und (pairs_of clique clique)) <-> In (u, v) und /\ ~ (In u clique /\ In v clique)) by
    (intros u v; refine (iff_trans (ediff_In _ _ _) _); split; intros [A B]; (split; [exact A|]); intros X; apply B; [exact (proj2 (pairs_of_In _ _ clique clique u v) X)|exact (proj1 (pairs_of_In _ _ clique clique u v) X)]).
  assert (J : exists new2 es2, fst jr = n1 ++ new2 /\ snd jr = e1 ++ es2 /\ numbered conn (fst jr) /\
    (forall e, In e es2 -> (In (fst e) reps \/ In (fst e) new2) /\ (In (snd e) reps \/ In (snd e) new2) /\ fst e <> snd e) /\
    forall r s, In r reps -> In s reps -> r <> s -> via (sym (snd jr)) (fun q => In q (fst jr)) r s).
  { assert (Nr : NoDup (map snd reps)) by (destruct (reps_ns _ _ _ _ _ _ _ _ F (sorted_set_nodup _)) as (l & El & Nl & _); cbn [map app] in El; rewrite El; exact Nl).
    unfold jr. cbn [join_reps]. destruct reps as [|a [|b [|c t]]].
    - exists [], []. cbn [fst snd]. rewrite !app_nil_r. split; auto. split; auto. split; auto. split; [intros e []|intros r s []].
    - exists [], []. cbn [fst snd]. rewrite !app_nil_r. split; auto. split; auto. split; auto. split; [intros e []|intros r s [<-|[]] [<-|[]] X; congruence].
    - exists [], [(a, b)]. cbn [fst snd]. rewrite app_nil_r. split; auto. split; auto. split; auto. split; [intros e [<-|[]]; cbn [fst snd In]; split; [auto|split; [auto|]]; intros ->; apply NoDup_cons_iff in Nr as [X _]; apply X; left; auto|].
      intros r s [<-|[<-|[]]] [<-|[<-|[]]] X; try congruence; apply via_edge; unfold sym; rewrite !in_app_iff; cbn; auto.
    - set (q := (("clique_" ++ conn ++ str_nat (List.length n1))%string, "")). exists [q], (map (fun r => (r, q)) (a :: b :: c :: t)). cbn [fst snd]. split; auto. split; auto.
      split; [apply numbered_app; [exact Nu1|right; reflexivity]|]. split.
      + intros e He. apply in_map_iff in He as (r & <- & Hr). cbn [fst snd]. split; [left; auto|split; [right; left; auto|]]. intros ->.
        assert (Nq : numbered conn (n1 ++ [q])) by (apply numbered_app; [exact Nu1|right; reflexivity]). apply (numbered_nodup conn _ TK) in Nq. rewrite map_app in Nq.
        destruct (N2 q Hr) as [Hn|Hn]; [|apply Own in Hn; destruct Hn as [Hn _]; unfold q in Hn; cbn [fst] in Hn; rewrite prefix_app in Hn; discriminate].
        assert (X : In (fst q) (map fst n1)) by (apply in_map; rewrite En; apply in_or_app; auto). exact (nodup_disjoint string (map fst n1) [fst q] (fst q) Nq X (or_introl eq_refl)).
      + intros r s Hr Hs _. apply (via_step _ _ r q s); [left; apply in_or_app; right; apply in_map_iff; eauto|apply in_or_app; right; left; auto|].
        apply via_edge. right. apply in_or_app. right. apply in_map_iff. eauto. }
  destruct J as (new2 & es2 & J1 & J2 & J3 & J4 & J5). split; [|split; [exact J3|split; [exact UE|]]].
  - exists (new ++ new2). split; [rewrite J1, En, app_assoc; auto|]. exists (es ++ es2). split; [rewrite J2, Ee, app_assoc; auto|].
    assert (Rp : forall r, In r reps \/ In r new2 -> In r clique \/ In r (new ++ new2)) by (intros r [H|H]; [destruct (N2 r H)|]; rewrite ?in_app_iff; auto).
    intros e He. apply in_app_or in He as [He|He].
    + destruct (Es e He) as (A & B & D). split; [auto|split; [auto|]]. intros X. apply B. rewrite X. auto.
    + destruct (J4 e He) as (A & B & D). split; auto.
  - intros u v Hu Hv N. destruct (R' u Hu) as (r & Hr & Du), (R' v Hv) as (s & Hs & Dv).
    assert (Mid : forall r : gnode, In r reps -> ~ own_name r -> In r (fst jr)).
    { intros x Hx Ox. rewrite J1, En. destruct (N2 x Hx) as [H|H]; [rewrite !in_app_iff; auto|]. destruct (Ox (Own x H)). }
    assert (Ed : forall e, In e e1 -> In e (snd jr)) by (intros e He; rewrite J2; apply in_or_app; auto).
    destruct (gnode_dec r s) as [<-|Nrs].
    + destruct Du as [Du|[Du O]], Dv as [Dv|[Dv O']]; try congruence.
      * subst r. destruct (O' (Own u Hu)).
      * subst r. destruct (O (Own v Hv)).
      * apply (via_step _ _ u r v); [right; auto|apply (Mid r); auto|]. apply via_edge. left. auto.
    + pose proof (J5 r s Hr Hs Nrs) as P.
      assert (P1 : via (sym (snd jr)) (fun q => In q (fst jr)) u s).
      { destruct Du as [->|[Du O]]; [exact P|]. apply (via_step _ _ u r s); [right; auto|apply (Mid r); auto|exact P]. }
      destruct Dv as [->|[Dv O]]; [exact P1|]. apply (via_trans _ _ _ u s v); [exact P1|apply (Mid s); auto|]. apply via_edge. left. auto.
Qed.

(** Cliques with their new nodes. *)
Definition block := (list gnode * list gnode)%type.
Definition member (b : block) (x : gnode) : Prop := In x (fst b) \/ In x (snd b).
Record cl_inv (und0 : list gedge) (und edges : list gedge) (nodes : list gnode) (bs : list block) : Prop := {
  ci_nodes : nodes = flat_map snd bs;
  ci_num : numbered conn nodes;
  ci_own : forall b u, In b bs -> In u (fst b) -> own_name u;
  ci_node : forall b u, In b bs -> In u (fst b) -> node_of und0 u;
  ci_edges : forall e, In e edges -> exists b, In b bs /\ member b (fst e) /\ member b (snd e) /\ fst e <> snd e;
  ci_und : forall u v, In (u, v) und <-> In (u, v) und0 /\ ~ exists b, In b bs /\ In u (fst b) /\ In v (fst b);
  ci_clique : forall b u v, In b bs -> In u (fst b) -> In v (fst b) -> u <> v -> sym und0 u v;
  ci_via : forall b u v, In b bs -> In u (fst b) -> In v (fst b) -> u <> v -> via (sym edges) (fun q => In q nodes) u v
}.
Lemma other_member : forall (c : list gnode) (u : gnode), NoDup c -> List.length c >= 4 -> In u c -> exists v, In v c /\ v <> u.
Proof using.
  intros c u N L H. destruct c as [|a [|b c]]; [cbn in L; lia|cbn in L; lia|]. destruct (gnode_dec a u) as [->|X]; [|exists a; split; [left; auto|auto]].
  exists b. split; [right; left; auto|]. intros ->. inversion N as [|? ? X _]. apply X. left. auto.
Qed.
Lemma cliques_fold : forall und0 cs und edges nodes bs, (forall e, In e und0 -> own_name (fst e) /\ own_name (snd e)) ->
  (forall c, In c cs -> NoDup c /\ forall u v, In u c -> In v c -> u <> v -> sym und0 u v) -> cl_inv und0 und edges nodes bs ->
  exists bs', let r := fold_left (clique_step conn) cs (und, edges, nodes) in cl_inv und0 (fst (fst r)) (snd (fst r)) (snd r) bs'.
Proof using TK.
  intros und0 cs. induction cs as [|c cs IH]; intros und edges nodes bs Ow Ok I; cbn [fold_left]; [exists bs; exact I|].
  destruct (clique_step conn (und, edges, nodes) c) as [[und1 edges1] nodes1] eqn:E.
  destruct (Nat.lt_ge_cases (List.length c) 4) as [L|L].
  - assert (X : (und1, edges1, nodes1) = (und, edges, nodes)) by (rewrite <- E; unfold clique_step; apply Nat.ltb_lt in L; rewrite L; auto). injection X as -> -> ->.
    apply (IH und edges nodes bs); auto. intros c' Hc'. apply Ok. right. auto.
  - destruct (Ok c (or_introl eq_refl)) as [Nd Adj].
    assert (Oc : forall u, In u c -> own_name u).
    { intros u Hu. destruct (other_member c u Nd L Hu) as (v & Hv & N). destruct (Adj u v Hu Hv (not_eq_sym N)) as [H|H]; apply Ow in H; apply H. }
    assert (Nc : forall u, In u c -> node_of und0 u).
    { intros u Hu. destruct (other_member c u Nd L Hu) as (v & Hv & N). destruct (Adj u v Hu Hv (not_eq_sym N)) as [H|H]; eexists; split; eauto. }
    destruct I as [I1 I2 I3 I3' I4 I5 I6 I7].
    destruct (clique_step_spec und edges nodes c und1 edges1 nodes1 Oc I2 E L) as ((new & En & es & Ee & Es) & Nu & Un & Vi).
    apply (IH und1 edges1 nodes1 (bs ++ [(c, new)])); auto; [intros c' Hc'; apply Ok; right; auto|].
    assert (Bs : forall b, In b (bs ++ [(c, new)]) <-> In b bs \/ b = (c, new)) by (intros b; rewrite in_app_iff; cbn; intuition).
    constructor.
    + rewrite flat_map_app. cbn [flat_map snd]. rewrite app_nil_r. rewrite En, I1. reflexivity.
    + exact Nu.
    + intros b u Hb Hu. apply Bs in Hb as [Hb| ->]; [apply (I3 b); auto|apply Oc; exact Hu].
    + intros b u Hb Hu. apply Bs in Hb as [Hb| ->]; [apply (I3' b); auto|apply Nc; exact Hu].
    + intros e He. rewrite Ee in He. apply in_app_or in He as [He|He].
      * destruct (I4 e He) as (b & Hb & M). exists b. split; [apply Bs; auto|exact M].
      * exists (c, new). split; [apply Bs; auto|]. exact (Es e He).
    + intros u v. rewrite Un, I5. split.
      * intros [[H1 H2] H3]. split; auto. intros (b & Hb & Hu & Hv). apply Bs in Hb as [Hb| ->]; [apply H2; eauto|apply H3; auto].
      * intros [H1 H2]. split; [split; auto; intros (b & Hb & Hu & Hv); apply H2; exists b; split; [apply Bs; auto|auto]|].
        intros [Hu Hv]. apply H2. exists (c, new). split; [apply Bs; auto|auto].
    + intros b u v Hb Hu Hv N. apply Bs in Hb as [Hb| ->]; [apply (I6 b); auto|apply Adj; auto].
    + intros b u v Hb Hu Hv N. apply Bs in Hb as [Hb| ->]; [|apply Vi; auto].
      apply (via_mono _ (sym edges) _ (fun q => In q nodes)); [|intros x Hx; rewrite En; apply in_or_app; auto|apply (I7 b); auto].
      intros x y [H|H]; [left|right]; rewrite Ee; apply in_or_app; auto.
Qed.
Lemma block_unique : forall (bs : list block) b1 b2 q, NoDup (flat_map snd bs) -> In b1 bs -> In b2 bs -> In q (snd b1) -> In q (snd b2) -> b1 = b2.
Proof using.
  induction bs as [|b bs IH]; intros b1 b2 q N H1 H2 Q1 Q2; [destruct H1|]. cbn [flat_map] in N.
  assert (D : forall x, In x (snd b) -> ~ In x (flat_map snd bs)).
  { clear - N. induction (snd b) as [|y l IHl]; intros x Hx; [destruct Hx|]. cbn in N. inversion N as [|? ? A B]. destruct Hx as [->|Hx]; [intros X; apply A; apply in_or_app; auto|apply IHl; auto]. }
  assert (N' : NoDup (flat_map snd bs)) by (clear - N; induction (snd b); cbn in N; [auto|inversion N; auto]).
  destruct H1 as [<-|H1], H2 as [<-|H2]; auto; [exfalso|exfalso|apply (IH b1 b2 q); auto].
  - apply (D q Q1). apply in_flat_map. eauto.
  - apply (D q Q2). apply in_flat_map. eauto.
Qed.
Lemma NoDup_of_map : forall X Y (f : X -> Y) l, NoDup (map f l) -> NoDup l.
Proof using. intros X Y f l. induction l as [|x l IH]; intros N; [constructor|]. cbn [map] in N. apply NoDup_cons_iff in N as [A B]. constructor; [intros H; apply A; apply in_map; exact H|auto]. Qed.
Lemma via_in_clique : forall und0 und edges nodes bs u v, cl_inv und0 und edges nodes bs -> own_name u -> own_name v ->
  via (sym edges) (fun q => In q nodes) u v -> exists b, In b bs /\ In u (fst b) /\ In v (fst b).
Proof using TK.
  intros und0 und edges nodes bs u v [I1 I2 I3 _ I4 I5 I6 I7] Ou Ov H.
  assert (Nd : NoDup nodes) by (apply (NoDup_of_map _ _ fst), (numbered_nodup conn); auto). rewrite I1 in Nd.
  assert (Sd : forall x y, sym edges x y -> exists b, In b bs /\ member b x /\ member b y).
  { intros x y [E|E]; destruct (I4 _ E) as (b & Hb & M1 & M2 & _); cbn [fst snd] in M1, M2; eauto. }
  assert (Fr : forall b x, In b bs -> In x (snd b) -> ~ own_name x).
  { intros b x Hb Hx. apply (numbered_fresh conn nodes); auto. rewrite I1. apply in_flat_map. eauto. }
  assert (Mo : forall b x, In b bs -> member b x -> own_name x -> In x (fst b)) by (intros b x Hb [M|M] Ox; [exact M|destruct (Fr b x Hb M Ox)]).
  assert (Mn : forall b x, In b bs -> member b x -> ~ own_name x -> In x (snd b)) by (intros b x Hb [M|M] Ox; [destruct (Ox (I3 b x Hb M))|exact M]).
  assert (G : forall x y, via (sym edges) (fun q => In q nodes) x y -> ~ own_name x -> forall b, In b bs -> In x (snd b) -> member b y).
  { intros x y P. induction P as [x y A|x q y A M P IH]; intros Ox b Hb Hx.
    - destruct (Sd x y A) as (b' & Hb' & M1 & M2). assert (b' = b) by (apply (block_unique bs b' b x); auto). subst. auto.
    - destruct (Sd x q A) as (b' & Hb' & M1 & M2). assert (b' = b) by (apply (block_unique bs b' b x); auto). subst b'.
      assert (Oq : ~ own_name q) by (apply (numbered_fresh conn nodes); auto). apply IH; auto. }
  inversion H as [u' v' A E1 E2|u' q v' A M P E1 E2]; subst u' v'.
  - destruct (Sd u v A) as (b & Hb & M1 & M2). exists b. split; auto.
  - destruct (Sd u q A) as (b & Hb & M1 & M2). assert (Oq : ~ own_name q) by (apply (numbered_fresh conn nodes); auto).
    exists b. split; auto. split; [apply Mo; auto|]. apply Mo; auto. apply (G q v P Oq b Hb). apply Mn; auto.
Qed.
Lemma cliqued_spec : forall find und und' edges nodes, finder_ok find -> (forall e, In e und -> own_name (fst e) /\ own_name (snd e)) ->
  cliqued conn find und = (und', edges, nodes) -> numbered conn nodes /\ (forall e, In e und' -> In e und) /\
  (forall e, In e edges -> (node_of und (fst e) \/ In (fst e) nodes) /\ (node_of und (snd e) \/ In (snd e) nodes) /\ fst e <> snd e) /\
  forall u v, own_name u -> own_name v -> u <> v -> (sym und u v <-> sym und' u v \/ via (sym edges) (fun q => In q nodes) u v).
Proof using TK.
  intros find und und' edges nodes F Ow E. unfold cliqued in E.
  assert (I0 : cl_inv und und [] [] []).
  { constructor; auto; try (intros; match goal with H : In _ [] |- _ => destruct H end).
    - intros i q H. destruct i; discriminate.
    - intros u v. split; [intros H; split; auto; intros (b & [] & _)|tauto]. }
  destruct (cliques_fold und (find und) und [] [] [] Ow (F und) I0) as (bs & I). rewrite E in I. cbn [fst snd] in I. cbv zeta in I.
  pose proof I as [I1 I2 _ I3 I4 I5 I6 I7]. split; auto. split; [intros [u v] H; apply I5 in H; apply H|]. split.
  - assert (M : forall b x, In b bs -> member b x -> node_of und x \/ In x nodes).
    { intros b x Hb [Hx|Hx]; [left; apply (I3 b); auto|right; rewrite I1; apply in_flat_map; eauto]. }
    intros e He. destruct (I4 e He) as (b & Hb & M1 & M2 & N). eauto.
  - intros u v Ou Ov N.
    assert (D : (exists b, In b bs /\ In u (fst b) /\ In v (fst b)) \/ ~ exists b, In b bs /\ In u (fst b) /\ In v (fst b)).
    { clear. induction bs as [|b bs [IH|IH]]; [right; intros (b & [] & _)|left; destruct IH as (b' & H & K); exists b'; split; [right; auto|auto]|].
      destruct (nmem u (fst b)) eqn:Eu; [destruct (nmem v (fst b)) eqn:Ev|].
      - left. exists b. apply nmem_spec in Eu, Ev. split; [left; auto|auto].
      - right. intros (b' & [<-|H] & H1 & H2); [apply nmem_spec in H2; congruence|apply IH; eauto].
      - right. intros (b' & [<-|H] & H1 & H2); [apply nmem_spec in H1; congruence|apply IH; eauto]. }
    split.
    + intros S. destruct D as [(b & Hb & Hu & Hv)|D]; [right; apply (I7 b); auto|left]. destruct S as [S|S]; [left|right]; apply I5; split; auto.
      intros (b & Hb & Hu & Hv). apply D. eauto.
    + intros [S|S]; [destruct S as [S|S]; [left|right]; apply I5 in S; apply S|]. destruct (via_in_clique und und' edges nodes bs u v I Ou Ov S) as (b & Hb & Hu & Hv). apply (I6 b); auto.
Qed.
End Clique.

(** ** Bicliques *)
Lemma fold_best : forall l acc, match fold_left (fun acc b => match acc with None => Some b | Some a => if (rank_of a <? rank_of b)%Z then Some b else acc end) l acc with
  | Some b => acc = Some b \/ In b l | None => acc = None /\ l = [] end.
Proof.
  induction l as [|x l IH]; intros acc; cbn [fold_left]; [destruct acc; auto|].
  assert (G : forall a, acc = Some a \/ In a (x :: l) -> match fold_left (fun acc b => match acc with None => Some b | Some a => if (rank_of a <? rank_of b)%Z then Some b else acc end) l (Some a) with
    | Some b => acc = Some b \/ In b (x :: l) | None => acc = None /\ x :: l = [] end).
  { intros a Ha. specialize (IH (Some a)). destruct (fold_left _ l (Some a)) as [b|]; [destruct IH as [E|E]; [injection E as <-; exact Ha|right; right; exact E]|destruct IH as [E _]; discriminate E]. }
  destruct acc as [a|]; [destruct (rank_of a <? rank_of x)%Z|]; apply G; cbn; auto.
Qed.
Lemma best_In : forall l b, best l = Some b -> In b l.
Proof. intros l b E. pose proof (fold_best l None) as H. unfold best in E. rewrite E in H. destruct H as [H|H]; [discriminate H|exact H]. Qed.
Lemma best_some : forall l, l <> [] -> exists b, best l = Some b.
Proof. intros l N. pose proof (fold_best l None) as H. unfold best. destruct (fold_left _ l None) as [b|]; [eauto|]. destruct H as [_ H]. congruence. Qed.
Lemma dsts_of_In : forall dir s d, In d (dsts_of dir s) <-> In (s, d) dir.
Proof.
  intros dir s d. unfold dsts_of. rewrite nodes_set_In, in_map_iff. split.
  - intros ([a b] & E & H). cbn in E. subst b. apply filter_In in H as [H K]. apply gnode_eqb_spec in K. cbn in K. subst. auto.
  - intros H. exists (s, d). split; auto. apply filter_In. split; auto. apply gnode_eqb_spec. auto.
Qed.
Lemma bicliques_sub : forall dir b u v, In b (bicliques dir) -> In u (fst b) -> In v (snd b) -> In (u, v) dir.
Proof.
  intros dir b u v Hb Hu Hv. unfold bicliques in Hb. apply in_map_iff in Hb as (s & <- & Hs). cbn [fst snd] in Hu, Hv. apply filter_In in Hu as [_ Hu].
  rewrite forallb_forall in Hu. apply Hu in Hv. apply nmem_spec in Hv. apply dsts_of_In. exact Hv.
Qed.
Lemma bicliques_some : forall dir, dir <> [] -> bicliques dir <> [].
Proof.
  intros dir N H. unfold bicliques in H. apply map_eq_nil in H. destruct dir as [|e dir]; [congruence|].
  assert (X : In (fst e) (nodes_set (map fst (e :: dir)))) by (apply nodes_set_In; left; auto). rewrite H in X. destruct X.
Qed.
Lemma ediff_shorter : forall l m e, In e l -> In e m -> List.length (ediff l m) < List.length l.
Proof.
  assert (G : forall l m, List.length (ediff l m) <= List.length l) by (intros l m; unfold ediff; induction l as [|x l IH]; cbn; [lia|destruct (negb (emem x m)); cbn; unfold gedge in *; lia]).
  intros l m e H K. induction l as [|x l IH]; [destruct H|]. cbn [ediff filter]. destruct H as [->|H].
  - apply emem_spec in K. rewrite K. cbn [negb List.length]. specialize (G l m). unfold ediff in G. unfold gedge in *. lia.
  - specialize (IH H). unfold ediff in IH. destruct (negb (emem x m)); cbn [List.length]; unfold gedge in *; lia.
Qed.
Section Biclique.
Context (conn : string).
Definition bnumbered (nodes : list gnode) : Prop := forall i q, nth_error nodes i = Some q -> q = (("biclique_" ++ conn ++ str_nat i)%string, "").
Lemma bnumbered_app : forall nodes, bnumbered nodes -> bnumbered (nodes ++ [(("biclique_" ++ conn ++ str_nat (List.length nodes))%string, "")]).
Proof using.
  intros nodes N i x E. destruct (Nat.lt_ge_cases i (List.length nodes)) as [L|G]; [rewrite nth_error_app1 in E by auto; apply N; auto|].
  rewrite nth_error_app2 in E by auto. destruct (i - List.length nodes) as [|k] eqn:D; [|destruct k; discriminate]. assert (i = List.length nodes) by lia. subst i. injection E as <-. reflexivity.
Qed.
Lemma bnumbered_fresh : forall nodes q, bnumbered nodes -> In q nodes -> ~ own_name q.
Proof using. intros nodes q N H [_ O]. apply In_nth_error in H as (i & H). rewrite (N i q H) in O. cbn [fst] in O. rewrite prefix_app in O. discriminate. Qed.
Lemma bnumbered_next : forall nodes q, bnumbered nodes -> In q nodes -> q <> (("biclique_" ++ conn ++ str_nat (List.length nodes))%string, "").
Proof using.
  intros nodes q N H E. apply In_nth_error in H as (i & H). rewrite (N i q H) in E. injection E as E. apply app_inj in E. apply str_nat_inj in E.
  assert (X : nth_error nodes i <> None) by congruence. apply nth_error_Some in X. lia.
Qed.
Lemma bnumbered_nodup : forall nodes, bnumbered nodes -> NoDup (map fst nodes).
Proof using.
  intros nodes N. apply NoDup_nth_error. intros i j Hi E. rewrite map_length in Hi.
  assert (M : forall k, nth_error (map fst nodes) k = option_map fst (nth_error (A:=gnode) nodes k)) by (intros k; apply nth_error_map).
  pose proof (eq_trans (eq_sym (M i)) (eq_trans E (M j))) as E2. clear E M.
  destruct (nth_error (A:=gnode) nodes i) as [p|] eqn:Ei; [|apply nth_error_None in Ei; unfold gnode in *; lia].
  destruct (nth_error (A:=gnode) nodes j) as [q|] eqn:Ej; cbn [option_map] in E2; [|discriminate E2]. injection E2 as E2.
  rewrite (N i p Ei), (N j q Ej) in E2. cbn [fst] in E2. apply app_inj, app_inj in E2. apply str_nat_inj; auto.
Qed.
Definition joined (edges : list gedge) (nodes : list gnode) (u v : gnode) : Prop := exists q, In q nodes /\ In (u, q) edges /\ In (q, v) edges.
Record bi_inv (dir0 dir edges : list gedge) (nodes : list gnode) : Prop := {
  bi_num : bnumbered nodes;
  bi_dir : forall e, In e dir -> In e dir0;
  bi_ends : forall e, In e edges -> (own_name (fst e) /\ In (snd e) nodes) \/ (In (fst e) nodes /\ own_name (snd e));
  bi_nodes : forall e, In e edges -> (node_of dir0 (fst e) /\ In (snd e) nodes) \/ (In (fst e) nodes /\ node_of dir0 (snd e));
  bi_eq : forall u v, own_name u -> own_name v -> (In (u, v) dir0 <-> In (u, v) dir \/ joined edges nodes u v)
}.
Lemma biclique_loop_spec : forall dir0, (forall e, In e dir0 -> own_name (fst e) /\ own_name (snd e)) ->
  forall fuel dir edges nodes, List.length dir <= fuel -> bi_inv dir0 dir edges nodes ->
  exists dir' edges' nodes', biclique_loop conn fuel (dir, edges, nodes) = Some (dir', edges', nodes') /\ bi_inv dir0 dir' edges' nodes'.
Proof using.
  intros dir0 Ow. induction fuel as [|fuel IH]; intros dir edges nodes L I.
  - destruct dir; [|cbn in L; lia]. exists [], edges, nodes. auto.
  - destruct dir as [|e0 dir0']; [exists [], edges, nodes; auto|]. cbn [biclique_loop]. set (dir := e0 :: dir0') in *.
    destruct (best_some (bicliques dir)) as (b & B); [apply bicliques_some; subst dir; discriminate|]. rewrite B.
    destruct (rank_of b <? 1)%Z eqn:R; [exists dir, edges, nodes; auto|]. apply Z.ltb_ge in R. apply best_In in B.
    pose proof (fun u v => bicliques_sub dir b u v B) as Sub.
    set (q := (("biclique_" ++ conn ++ str_nat (List.length nodes))%string, "")). destruct I as [I1 I2 I3 I3' I4].
    assert (Os : forall u, In u (fst b) -> own_name u /\ node_of dir0 u).
    { intros u Hu. destruct (snd b) as [|d D] eqn:Eb; [unfold rank_of in R; rewrite Eb in R; cbn [List.length] in R; lia|].
      assert (X : In (u, d) dir) by (apply Sub; auto; left; auto). apply I2 in X. split; [apply Ow in X; apply X|eexists; split; [exact X|auto]]. }
    assert (Od : forall u, In u (snd b) -> own_name u /\ node_of dir0 u).
    { intros u Hu. destruct (fst b) as [|d D] eqn:Eb; [unfold rank_of in R; rewrite Eb in R; cbn [List.length] in R; lia|].
      assert (X : In (d, u) dir) by (apply Sub; auto; left; auto). apply I2 in X. split; [apply Ow in X; apply X|eexists; split; [exact X|auto]]. }
    assert (Oq : ~ own_name q) by (intros [_ O]; unfold q in O; cbn [fst] in O; rewrite prefix_app in O; discriminate).
    apply IH.
    + destruct (fst b) as [|s S] eqn:Es; [unfold rank_of in R; rewrite Es in R; cbn [List.length] in R; lia|].
      destruct (snd b) as [|d D] eqn:Eb; [unfold rank_of in R; rewrite Eb in R; cbn [List.length] in R; lia|].
      assert (X : List.length (ediff dir (pairs_of (s :: S) (d :: D))) < List.length dir); [|lia].
      apply (ediff_shorter _ _ (s, d)); [apply Sub; left; auto|apply pairs_of_In; split; left; auto].
    + assert (Ed : forall x y, In (x, y) (edges ++ map (fun s => (s, q)) (fst b) ++ map (fun d => (q, d)) (snd b)) <->
        In (x, y) edges \/ (In x (fst b) /\ y = q) \/ (x = q /\ In y (snd b))).
      { intros x y. rewrite !in_app_iff, !in_map_iff. split.
        - intros [H|[(s & E & H)|(d & E & H)]]; [auto|injection E as -> <-; auto|injection E as <- ->; auto].
        - intros [H|[[H ->]|[-> H]]]; [auto|right; left; eauto|right; right; eauto]. }
      constructor.
      * apply bnumbered_app. exact I1.
      * intros e He. apply ediff_In in He. apply I2, He.
      * intros [x y] He. apply Ed in He. cbn [fst snd]. destruct He as [He|[[He ->]|[-> He]]].
        -- destruct (I3 _ He) as [[A C]|[A C]]; cbn [fst snd] in A, C; [left|right]; (split; [|]); auto; apply in_or_app; auto.
        -- left. split; [apply Os; auto|]. apply in_or_app. right. left. auto.
        -- right. split; [|apply Od; auto]. apply in_or_app. right. left. auto.
      * intros [x y] He. apply Ed in He. cbn [fst snd]. destruct He as [He|[[He ->]|[-> He]]].
        -- destruct (I3' _ He) as [[A C]|[A C]]; cbn [fst snd] in A, C; [left|right]; (split; [|]); auto; apply in_or_app; auto.
        -- left. split; [apply Os; auto|]. apply in_or_app. right. left. auto.
        -- right. split; [|apply Od; auto]. apply in_or_app. right. left. auto.
      * intros u v Ou Ov. rewrite (I4 u v Ou Ov).
        assert (J : joined (edges ++ map (fun s => (s, q)) (fst b) ++ map (fun d => (q, d)) (snd b)) (nodes ++ [q]) u v <-> joined edges nodes u v \/ (In u (fst b) /\ In v (snd b))).
        { unfold joined. split.
          - intros (p & Hp & H1 & H2). apply Ed in H1. apply Ed in H2.
            assert (Np : forall n, In n nodes -> n <> q) by (intros n Hn; apply bnumbered_next; auto).
            destruct H1 as [H1|[[H1 ->]|[-> _]]]; [|right; split; auto; destruct H2 as [H2|[[H2 _]|[_ H2]]]; auto|destruct (Oq Ou)].
            + destruct H2 as [H2|[[_ ->]|[-> _]]]; [|destruct (Oq Ov)|].
              * left. exists p. split; auto. destruct (I3 _ H1) as [[_ A]|[_ A]]; cbn [snd] in A; auto.
                apply in_app_or in Hp as [Hp|[<-|[]]]; [auto|destruct (Oq A)].
              * exfalso. destruct (I3 _ H1) as [[_ A]|[_ A]]; cbn [snd] in A; [apply (Np q A eq_refl)|auto].
            + exfalso. destruct (I3 _ H2) as [[A _]|[A _]]; cbn [fst] in A; [auto|apply (Np q A eq_refl)].
            + destruct (Oq (proj1 (Os q H2))).
          - intros [(p & Hp & H1 & H2)|[H1 H2]].
            + exists p. split; [apply in_or_app; auto|]. split; apply Ed; auto.
            + exists q. split; [apply in_or_app; right; left; auto|]. split; apply Ed; auto. }
        rewrite J, ediff_In. split.
        -- intros [H|H]; [|auto]. destruct (emem (u, v) (pairs_of (fst b) (snd b))) eqn:M.
           ++ apply emem_spec in M. apply pairs_of_In in M. auto.
           ++ left. split; auto. intros Y. apply emem_spec in Y. congruence.
        -- intros [[H _]|[H|[H1 H2]]]; auto.
Qed.
Lemma bicliqued_spec : forall dir, (forall e, In e dir -> own_name (fst e) /\ own_name (snd e)) ->
  exists dir' edges nodes, bicliqued conn dir = Some (dir', edges, nodes) /\ bi_inv dir dir' edges nodes.
Proof using.
  intros dir Ow. unfold bicliqued. apply (biclique_loop_spec dir Ow); [lia|]. constructor; [intros i q H; destruct i; discriminate|auto|intros e []|intros e []|].
  intros u v _ _. split; [auto|]. intros [H|(q & [] & _)]; auto.
Qed.
End Biclique.

(** ** One connection set *)
Record summary_ok (conn : string) (E : list gedge) (s : summary) : Prop := {
  so_eq : forall u v, own_name u -> own_name v -> u <> v -> (In (u, v) E <-> In (u, v) (su_dir s) \/ sym (su_und s) u v \/
      joined (su_biclique_edges s) (su_bicliques s) u v \/ via (sym (su_clique_edges s)) (fun q => In q (su_cliques s)) u v);
  so_dir : forall e, In e (su_dir s) -> In e E;
  so_und : forall e, In e (su_und s) -> In e E;
  so_ced : forall e, In e (su_clique_edges s) -> (node_of E (fst e) \/ In (fst e) (su_cliques s)) /\ (node_of E (snd e) \/ In (snd e) (su_cliques s)) /\ fst e <> snd e;
  so_bed : forall e, In e (su_biclique_edges s) -> (node_of E (fst e) /\ In (snd e) (su_bicliques s)) \/ (In (fst e) (su_bicliques s) /\ node_of E (snd e));
  so_cn : numbered conn (su_cliques s);
  so_bn : bnumbered conn (su_bicliques s)
}.
Theorem summarise_spec : forall conn find E, finder_ok find -> text_ok conn -> (forall e, In e E -> own_name (fst e) /\ own_name (snd e)) ->
  exists s, summarise conn find E = Some s /\ summary_ok conn E s.
Proof.
  intros conn find E F T Ow. unfold summarise. destruct (reformat [] E true) as [und1 dir1] eqn:E1. cbn [fst snd].
  assert (U1 : forall e, In e und1 -> In e E) by (intros e He; apply (reformat_und_incl _ _ _ _ E1 He)).
  assert (D1 : forall e, In e dir1 -> In e E) by (intros e He; apply (reformat_dir_incl _ _ _ _ E1 He)).
  assert (UF : forall u v, sym und1 u v -> In (u, v) E) by (intros u v [H|H]; apply (reformat_und_incl _ _ _ _ E1) in H; apply H).
  destruct (cliqued conn find und1) as [[und2 cedges] cnodes] eqn:E2.
  destruct (cliqued_spec conn T find und1 und2 cedges cnodes F (fun e He => Ow e (U1 e He)) E2) as (Cn & U2 & Ce & Ceq).
  set (dir2 := snd (reformat und2 dir1 false)). assert (D2 : forall u v, In (u, v) dir2 <-> In (u, v) dir1 \/ sym und2 u v) by (intros u v; apply reformat_directed).
  assert (D2E : forall e, In e dir2 -> In e E).
  { intros [u v] H. apply D2 in H as [H|H]; [apply D1; exact H|]. apply UF. destruct H as [H|H]; [left|right]; apply U2; exact H. }
  destruct (bicliqued_spec conn dir2 (fun e He => Ow e (D2E e He))) as (dir3 & bedges & bnodes & E3 & [B1 B2 _ B3 B4]). rewrite E3.
  assert (NM : forall l u, (forall e, In e l -> In e E) -> node_of l u -> node_of E u) by (intros l u Hl (e & He & K); exists e; auto).
  assert (R : fst (reformat und2 dir1 false) = []) by reflexivity. rewrite R.
  destruct (reformat [] dir3 true) as [und4 dir4] eqn:E4. eexists. split; [reflexivity|]. cbn [fst snd]. constructor; cbn [su_dir su_und su_cliques su_clique_edges su_bicliques su_biclique_edges]; auto.
  - intros u v Ou Ov N. rewrite (reformat_undirected _ _ _ u v E1 N), (Ceq u v Ou Ov N). pose proof (D2 u v) as X. pose proof (B4 u v Ou Ov) as Y. pose proof (reformat_undirected _ _ _ u v E4 N) as Z.
    clear - X Y Z. tauto.
  - intros e He. apply D2E, B2. apply (reformat_dir_incl _ _ _ _ E4 He).
  - intros e He. apply D2E, B2. apply (reformat_und_incl _ _ _ _ E4 He).
  - intros e He. destruct (Ce e He) as (A & B & D). split; [destruct A|split; [destruct B|]]; eauto.
  - intros e He. destruct (B3 e He) as [[A B]|[A B]]; [left|right]; split; eauto.
Qed.
