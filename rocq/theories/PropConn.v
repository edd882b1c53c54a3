(** * Claims C14, C15, C44, C45, C46: projection, reordering, construction from a connectivity cube,
    named ports and self-connections of ConnectivityProperties. *)
From Coq Require Import ZArith List Bool Arith Lia Permutation String.
From Verif Require Import IntervalModel IntervalFacts HyperModel HyperFacts HyperOps HyperDims HyperTop
                          HyperContain HyperInst PortProtoModel ConnModel ConnFacts PropHyperCube.
Import ListNotations.
Local Open Scope string_scope.
Local Open Scope list_scope.
Local Open Scope nat_scope.

(** ** C14: a projection is exactly the set of coordinates of the points.
    For dimensions whose "empty" value is really empty (all interval dimensions). *)
Theorem C14_projection_exact :
  forall V P (O : vops V P) vmem valid, vlaws O vmem valid ->
  forall all, NoDup all -> all <> [] ->
  forall e, good valid all e -> safe O vmem e ->
  nonempty O vmem (points vmem e) ->
  forall (vempty : dim -> V) d, valid d (vempty d) -> (forall x, ~ vmem x (vempty d)) ->
  forall x, vin O x (project O vempty all (run O all e) d) = true <->
            exists pt, in_space O vmem pt /\ points vmem e pt /\ pt d = x.
Proof.
  intros V P O vmem valid L all N NE e G S [w [Hw Pw]] vempty d Ve Nx x.
  destruct (run_spec O vmem valid L all N NE false e G S) as [A1 A2]; [discriminate|].
  assert (B : hbool (run O all e) = true).
  { apply (hbool_spec O vmem valid L false all _ N A1). exists w. split; auto. apply A2; auto. }
  destruct (project_spec O vmem valid L all N false _ d vempty A1 B Ve Nx) as [Vp Mp].
  rewrite (L_in _ _ _ L d) by auto. rewrite Mp. split; intros [p [P1 [P2 P3]]]; exists p; (split; [auto|split; [apply A2; auto|auto]]).
Qed.

Example ex_projection :
  let vempty := fun _ : dim => VI [] in
  project ex_ops vempty ex_all (run ex_ops ex_all (HCube [(0, r 10 20); (1, r 80 80)])) 0 = r 10 20 /\
  project ex_ops vempty ex_all (run ex_ops ex_all ex_prog) 0 = VI [Ivl 1 14; Ivl 31 65535] /\
  project ex_ops vempty ex_all (run ex_ops ex_all ex_prog) 1 = r 80 443.
Proof. vm_compute. auto. Qed.
Example ex_projection_hypotheses : nonempty ex_ops val_mem (points val_mem ex_prog) /\
  val_valid ex_dom 1 (VI []) /\ forall x, ~ val_mem x (VI []).
Proof.
  split; [|split].
  - exists (fun d => if Nat.leb d 0 then 1 else if Nat.leb d 1 then 80 else 0)%Z. split.
    + intros [|[|[|d]]]; unfold ex_ops, ex_dom; cbn; rewrite ?mem_cons, ?mem_nil; simpl; try lia; intros [].
    + cbn [points ex_prog]. split.
      * right. intros d v [E|[]]. injection E as <- <-. simpl. rewrite mem_cons. simpl. lia.
      * intro H. specialize (H 0 (r 15 30) (or_introl eq_refl)). simpl in H. rewrite mem_cons, mem_nil in H. simpl in H. lia.
  - split; [exact I|]. split; [exact I|]. intros x H. exact (False_ind _ (proj1 (mem_nil x) H)).
  - intros x H. exact (proj1 (mem_nil x) H).
Qed.

(** Finding: for hosts and paths get_empty_dimension_by_name returns the language {""}, which is not
    empty; the projection then contains a word that no point has.  Words are numbers here, 0 is "". *)
Theorem C14_projection_on_words_refuted :
  let eps := VN false [Ivl 0 0] in
  let e := HCube [(2, VN false [Ivl 5 5])] in
  good (val_valid ex_dom) ex_all e /\ safe ex_ops val_mem e /\
  vin ex_ops 0%Z (project ex_ops (fun _ => eps) ex_all (run ex_ops ex_all e) 2) = true /\
  ~ exists pt, points val_mem e pt /\ pt 2 = 0%Z.
Proof.
  cbv zeta. split; [|split; [|split]].
  - cbn [good]. split; [discriminate|]. split; [cbn; repeat constructor|]. intros d v [E|[]]. injection E as <- <-.
    split; [simpl; lia|]. split; [exact I|]. intros x _. cbn. rewrite mem_nil. tauto.
  - exact I.
  - vm_compute. reflexivity.
  - intros [pt [H E]]. specialize (H 2 _ (or_introl eq_refl)). simpl in H. rewrite E, mem_cons, mem_nil in H. simpl in H. lia.
Qed.

(** Finding: the projection of an empty object on a dimension that its (reduced) active dimensions
    lack is the whole domain. *)
Theorem C14_projection_of_empty_refuted :
  let e := HAnd (HCube [(1, r 80 80)]) (HCube [(1, r 443 443)]) in
  good (val_valid ex_dom) ex_all e /\ safe ex_ops val_mem e /\ (forall pt, ~ points val_mem e pt) /\
  vin ex_ops 7%Z (project ex_ops (fun _ => VI []) ex_all (run ex_ops ex_all e) 0) = true.
Proof.
  cbv zeta. split; [goods|]. split; [cbn; auto|]. split; [|vm_compute; reflexivity].
  cbn [points]. intros pt [H1 H2]. specialize (H1 1 _ (or_introl eq_refl)). specialize (H2 1 _ (or_introl eq_refl)).
  simpl in H1, H2. rewrite mem_cons, mem_nil in H1, H2. simpl in H1, H2. lia.
Qed.

(** ** C15: reordering and minimization keep the set. *)
Theorem C15_reorder_keeps_the_set :
  forall V P (O : vops V P) vmem valid, vlaws O vmem valid ->
  forall all, NoDup all ->
  forall e, good valid all e -> safe O vmem e -> is_all (run O all e) = false ->
  forall src dst, In src all -> In dst all ->
  exists na h, reorder_switch O all (run O all e) src dst = Some (na, h) /\ Permutation na all /\
    forall pt, in_space O vmem pt -> (contains O pt h = true <-> points vmem e pt).
Proof.
  intros V P O vmem valid L all N e G S I src dst Is Id. assert (NE : all <> []) by (intros ->; destruct Is).
  destruct (run_spec O vmem valid L all N NE false e G S) as [A1 A2]; [discriminate|].
  destruct (reorder_switch_spec O vmem valid L all _ src dst N Is Id A1 I) as [na [h [E [Pm [Oh M]]]]].
  exists na, h. split; auto. split; auto. intros pt Hp.
  assert (Nna : NoDup na) by (apply (Permutation_NoDup (Permutation_sym Pm)); auto).
  rewrite (contains_spec O vmem valid L false na) by auto.
  rewrite M, A2 by auto. tauto.
Qed.

(** In general, for any permutation of the dimensions given by an index map. *)
Theorem C15_reorder_by_any_map :
  forall V P (O : vops V P) vmem valid, vlaws O vmem valid ->
  forall all, NoDup all -> all <> [] ->
  forall e, good valid all e -> safe O vmem e -> is_all (run O all e) = false ->
  forall m na, reorder_list all m = Some na -> Permutation na all ->
  exists h, reorder_by O all (run O all e) m = Some (na, h) /\
    forall pt, in_space O vmem pt -> (contains O pt h = true <-> points vmem e pt).
Proof.
  intros V P O vmem valid L all N NE e G S I m na Em Pm.
  destruct (run_spec O vmem valid L all N NE false e G S) as [A1 A2]; [discriminate|].
  destruct (reorder_by_spec O vmem valid L false all _ m na eq_refl N NE A1 I Em Pm) as [h [E [Oh M]]].
  exists h. split; auto. intros pt Hp.
  assert (Nna : NoDup na) by (apply (Permutation_NoDup (Permutation_sym Pm)); auto).
  rewrite (contains_spec O vmem valid L false na) by auto.
  rewrite M, A2 by auto. tauto.
Qed.

Theorem C15_minimize_keeps_the_set_and_does_not_grow :
  forall V P (O : vops V P) vmem valid, vlaws O vmem valid ->
  forall all, NoDup all ->
  forall e, good valid all e -> safe O vmem e -> is_all (run O all e) = false ->
  forall src dst, In src all -> In dst all ->
  exists na h, minimize O all (run O all e) src dst = Some (na, h) /\ Permutation na all /\
    hlen h <= hlen (run O all e) /\
    (forall na' h', reorder_switch O all (run O all e) src dst = Some (na', h') -> hlen h <= hlen h') /\
    forall pt, in_space O vmem pt -> (contains O pt h = true <-> points vmem e pt).
Proof.
  intros V P O vmem valid L all N e G S I src dst Is Id. assert (NE : all <> []) by (intros ->; destruct Is).
  destruct (C15_reorder_keeps_the_set V P O vmem valid L all N e G S I src dst Is Id) as [na [h [E [Pm M]]]].
  unfold minimize. rewrite E. destruct (Nat.leb_spec (hlen (run O all e)) (hlen h)).
  - exists all, (run O all e). split; auto. split; auto. split; auto. split.
    + intros na' h' H'. injection H' as <- <-. auto.
    + intros pt Hp. apply (C08_cube_set_algebra_exact V P O vmem valid L all N NE); auto.
  - exists na, h. split; auto. split; auto. split; [lia|]. split; auto. intros na' h' H'. injection H' as <- <-. auto.
Qed.

(** Non-trivial case: three rows but only two columns, so switching wins. *)
Definition ex_min : hexp val := HOr (HCube [(0, r 1 1); (1, r 5 5)]) (HOr (HCube [(0, r 2 2); (1, r 7 7)])
  (HOr (HCube [(0, r 4 4); (1, r 5 5)]) (HCube [(0, r 4 4); (1, r 7 7)]))).
Example ex_min_ok : good (val_valid ex_dom) ex_all ex_min /\ safe ex_ops val_mem ex_min /\
  is_all (run ex_ops ex_all ex_min) = false /\ hlen (run ex_ops ex_all ex_min) = 3 /\
  option_map (fun q => (fst q, hlen (snd q))) (minimize ex_ops ex_all (run ex_ops ex_all ex_min) 0 1) = Some ([1; 0; 2], 2).
Proof. split; [unfold ex_min; goods|]. split; [cbn; tauto|]. vm_compute. auto. Qed.

(** Finding: an object that is everything cannot be reordered or minimized; the code raises IndexError
    (its only cube has all dimensions while its index map is empty). *)
Theorem C15_reorder_of_everything_refuted :
  forall V P (O : vops V P) all (h : hc V) src dst, all <> [] -> is_all h = true ->
  reorder_switch O all h src dst = None /\ minimize O all h src dst = None.
Proof.
  intros V P O all h src dst NE I. unfold minimize. rewrite reorder_all_fails by auto. auto.
Qed.
Example ex_everything : is_all (run ex_ops ex_all (HSub (HAll Conn) (HEmpty Conn))) = true.
Proof. reflexivity. Qed.

(** ** C44: the properties made from a connectivity cube are exactly the cube. *)
Theorem C44_cube_to_properties_exact :
  forall V P (O : vops V P) vmem valid, vlaws O vmem valid ->
  forall all, NoDup all -> all <> [] ->
  forall vempty, (forall d, In d all -> valid d (vempty d) /\ forall x, ~ vmem x (vempty d)) ->
  forall c : dim -> V, (forall d, In d all -> valid d (c d)) ->
  let h := make_props O vempty all c in
  (forall pt, in_space O vmem pt -> (contains O pt h = true <-> forall d, In d all -> vmem (pt d) (c d))) /\
  (hbool h = true <-> forall d, In d all -> exists x, vmem x (c d)) /\
  (is_all h = true <-> forall d x, In d all -> vmem x (vdom O d) -> vmem x (c d)).
Proof.
  intros V P O vmem valid L all N NE vempty Ve c Vc h.
  destruct (make_props_spec O vmem valid L all vempty c N NE Vc Ve) as [A B]. fold h in A, B.
  split; [|split].
  - intros pt Hp. rewrite (contains_spec O vmem valid L false all) by auto. apply B; auto.
  - rewrite (hbool_spec O vmem valid L false all) by auto. split.
    + intros [p [Hp D]] d Hd. exists (p d). apply B; auto.
    + intro H. exists (fun d => if mem_dim d all then vrep O (c d) else vrep O (vdom O d)). 
      assert (Hp : in_space O vmem (fun d => if mem_dim d all then vrep O (c d) else vrep O (vdom O d))).
      { intro d. destruct (mem_dim d all) eqn:Em.
        - apply mem_dim_In in Em. apply (L_sub_dom _ _ _ L d (c d)); auto. apply (L_rep _ _ _ L d); auto.
        - apply (L_rep _ _ _ L d); [apply (L_dom _ _ _ L)|apply (L_dom_ne _ _ _ L)]. }
      split; auto. apply B; auto. intros d Hd. rewrite (proj2 (mem_dim_In d all) Hd). apply (L_rep _ _ _ L d); auto.
  - rewrite (is_all_spec O vmem valid L false all) by auto. split.
    + intros H d x Hd Hx. destruct (indom_ex O vmem valid L) as [q Hq].
      assert (Hp : in_space O vmem (upd q d x)).
      { intro e. unfold upd. destruct (Nat.eqb_spec e d) as [->|]; [auto|apply Hq]. }
      pose proof (proj1 (B _ Hp) (H _ Hp) d Hd) as X. unfold upd in X. rewrite Nat.eqb_refl in X. auto.
    + intros H p Hp. apply B; auto.
Qed.

(** Finding: with the code's "empty" word value {""}, a cube whose hosts are exactly {""} is
    taken for an empty cube. *)
Theorem C44_empty_word_refuted :
  let eps := VN false [Ivl 0 0] in
  let c := ccube_set (ccube_full ex_ops) 2 eps in
  let vempty := fun d => if Nat.leb d 1 then VI [] else eps in
  let pt := fun d => if Nat.leb d 1 then 80%Z else 0%Z in
  (forall d, In d ex_all -> val_valid ex_dom d (c d)) /\
  in_space ex_ops val_mem pt /\ (forall d, In d ex_all -> val_mem (pt d) (c d)) /\
  hbool (make_props ex_ops vempty ex_all c) = false.
Proof.
  cbv zeta. split; [|split; [|split]].
  - intros d [<-|[<-|[<-|[]]]]; (split; [simpl; lia|]; split; [exact I|]); intros x; cbn; rewrite ?mem_cons, ?mem_nil; simpl; lia.
  - intros [|[|[|d]]]; unfold ex_ops, ex_dom; cbn; rewrite ?mem_cons, ?mem_nil; simpl; try lia; intros [].
  - intros d [<-|[<-|[<-|[]]]]; cbn; rewrite ?mem_cons, ?mem_nil; simpl; lia.
  - vm_compute. reflexivity.
Qed.

(** ** C45: named ports.
    A connection is in the result iff its other coordinates are in the cube and its destination port
    is one of the numeric ports, or the number that one of the names has at the destination peer with
    a protocol of the cube; and it is not such a number of an excluded name. *)
Section C45.
Context {V P : Type} (O : vops V P) (vmem : P -> V -> Prop).
Definition resolves (names : list string) (protocols : V) (peer : peerinfo (V:=V) (P:=P)) (n : P) : Prop :=
  exists name proto, In name names /\ assoc_s name (pports peer) = Some (n, proto) /\ vmem proto protocols.
Definition named_conn (all : list dim) (c : dim -> V) (dports dpeers dprotos : dim) (peers : list (peerinfo (V:=V) (P:=P)))
    (names : list string) (pt : dim -> P) : Prop :=
  exists peer, In peer peers /\ vmem (pt dpeers) (pv peer) /\ resolves names (c dprotos) peer (pt dports) /\
    forall d, In d all -> d <> dports -> d <> dpeers -> vmem (pt d) (c d).
Definition numeric_conn (all : list dim) (c : dim -> V) (pt : dim -> P) : Prop :=
  forall d, In d all -> vmem (pt d) (c d).
End C45.

Theorem C45_named_ports_resolved_per_peer :
  forall V P (O : vops V P) vmem valid, vlaws O vmem valid ->
  forall all dports dpeers dprotos, NoDup all -> In dports all -> In dpeers all -> In dprotos all -> dports <> dpeers ->
  forall vempty, (forall d, In d all -> valid d (vempty d) /\ forall x, ~ vmem x (vempty d)) ->
  forall vset, (forall l, (forall x, In x l -> vmem x (vdom O dports)) ->
                 valid dports (vset l) /\ forall x, vmem x (vset l) <-> In x l) ->
  forall (c : dim -> V) named excl peers, (forall d, In d all -> valid d (c d)) ->
  (* the peers of the cube: valid disjoint values, port numbers in range *)
  let ps := peers (c dpeers) in
  (forall q, In q ps -> valid dpeers (pv q) /\
     forall name n proto, assoc_s name (pports q) = Some (n, proto) -> vmem n (vdom O dports)) ->
  ForallOrdPairs (fun a b => forall x, vmem x (pv a) -> vmem x (pv b) -> False) ps ->
  (* nothing excluded, or some numeric connection remains *)
  (excl = [] \/ exists w, in_space O vmem w /\ numeric_conn vmem all c w /\
                          ~ named_conn vmem all c dports dpeers dprotos ps excl w) ->
  forall pt, in_space O vmem pt ->
  (contains O pt (make_conn_props O vempty vset peers dports dpeers dprotos all c named excl) = true <->
   (numeric_conn vmem all c pt \/ named_conn vmem all c dports dpeers dprotos ps named pt) /\
   ~ named_conn vmem all c dports dpeers dprotos ps excl pt).
Proof.
  intros V P O vmem valid L all dports dpeers dprotos N Ip Id Ir Ne vempty Ve vset Vs c named excl peers Vc ps Gp D Sf pt Hp.
  assert (NE : all <> []) by (intros ->; destruct Ip).
  destruct (make_props_spec O vmem valid L all vempty c N NE Vc Ve) as [A B].
  assert (NP : forall names p, (exists q, In q ps /\ named_pt vmem dports dpeers all c (c dprotos) names q p) <->
                    named_conn vmem all c dports dpeers dprotos ps names p).
  { intros names p. unfold named_conn, named_pt, resolves. split.
    - intros [q [Hq [H1 [H2 H3]]]]. exists q. auto.
    - intros [q [Hq [H1 [H2 H3]]]]. exists q. auto. }
  set (h0 := if vbool O (c dports) then make_props O vempty all c else hempty Conn all).
  assert (H0 : obj O vmem valid false all h0 /\ forall p, in_space O vmem p -> (denot vmem h0 p <-> numeric_conn vmem all c p)).
  { unfold h0. destruct (vbool O (c dports)) eqn:Eb; [split; auto|]. split; [apply hempty_obj; auto; discriminate|].
    intros p Hq. split; [intro H; exfalso; revert H; apply empty_denot; auto|].
    intro H. exfalso. assert (vbool O (c dports) = true); [|congruence]. apply (L_bool _ _ _ L dports); auto. exists (p dports). auto. }
  destruct H0 as [O0 M0].
  assert (Main : obj O vmem valid false all (fold_left (named_step O vempty vset dports dpeers all c named excl (c dprotos)) ps h0) /\
     forall p, in_space O vmem p -> (denot vmem (fold_left (named_step O vempty vset dports dpeers all c named excl (c dprotos)) ps h0) p <->
        (denot vmem h0 p \/ exists q, In q ps /\ named_pt vmem dports dpeers all c (c dprotos) named q p) /\
        ~ exists q, In q ps /\ named_pt vmem dports dpeers all c (c dprotos) excl q p)).
  { apply (named_loop O vmem valid L vset vempty dports dpeers dprotos all N Ip Id Ir Ne Ve Vs c Vc); auto.
    destruct Sf as [Sf|[w [W1 [W2 W3]]]]; [left; auto|right]. exists w. split; auto. split; [apply M0; auto|].
    intros q Hq H. apply W3. apply NP. eauto. }
  destruct Main as [Om Mm].
  assert (X : obj O vmem valid false all (make_conn_props O vempty vset peers dports dpeers dprotos all c named excl) /\
    (denot vmem (make_conn_props O vempty vset peers dports dpeers dprotos all c named excl) pt <->
     (numeric_conn vmem all c pt \/ named_conn vmem all c dports dpeers dprotos ps named pt) /\
     ~ named_conn vmem all c dports dpeers dprotos ps excl pt)).
  { unfold make_conn_props. destruct named as [|n0 nt]; [destruct excl as [|e0 et]|].
    - split; auto. rewrite B by auto. unfold numeric_conn. split.
      + intro H. split; auto. intros [q [_ [_ [[nm [pr [[] _]]] _]]]].
      + intros [[H|[q [_ [_ [[nm [pr [[] _]]] _]]]]] _]; auto.
    - split; [exact Om|]. rewrite <- !NP. rewrite <- M0 by auto. apply Mm; auto.
    - split; [exact Om|]. rewrite <- !NP. rewrite <- M0 by auto. apply Mm; auto. }
  destruct X as [X1 X2]. rewrite (contains_spec O vmem valid L false all) by auto. exact X2.
Qed.

(** When the cube has a single protocol, a name only resolves to ports of the connection's protocol. *)
Theorem C45_single_protocol :
  forall V P (O : vops V P) vmem (all : list dim) (c : dim -> V) dports dpeers dprotos peers names pt pr0,
  In dprotos all -> dprotos <> dports -> dprotos <> dpeers ->
  (forall x, vmem x (c dprotos) <-> x = pr0) ->
  named_conn (P:=P) vmem all c dports dpeers dprotos peers names pt ->
  exists peer name, In peer peers /\ In name names /\ vmem (pt dpeers) (pv peer) /\
    assoc_s name (pports peer) = Some (pt dports, pt dprotos).
Proof.
  intros V P O vmem all c dports dpeers dprotos peers names pt pr0 Ir N1 N2 Hs [q [Hq [H1 [[nm [pr [X1 [X2 X3]]]] H3]]]].
  exists q, nm. repeat split; auto. rewrite X2. f_equal. f_equal. apply Hs in X3. specialize (H3 dprotos Ir N1 N2). apply Hs in H3. congruence.
Qed.

(** Concrete world: dimensions 0 = dst_peers, 1 = protocols, 2 = dst_ports, all numeric. *)
Definition np_dom (d : dim) : val := VI [Ivl 1 65535].
Definition np_all : list dim := [0; 1; 2].
Definition np_ops := val_ops np_dom.
Definition np_vset (l : list Z) : val := VI (fold_left (fun s n => match add_interval s (Ivl n n) with Some s' => s' | None => s end) l []).
Lemma np_vset_ok l : (forall x, In x l -> val_mem x (vdom np_ops 2)) ->
  val_valid np_dom 2 (np_vset l) /\ forall x, val_mem x (np_vset l) <-> In x l.
Proof.
  intro H. assert (X : canonical (fold_left (fun s n => match add_interval s (Ivl n n) with Some s' => s' | None => s end) l []) /\
    forall x, mem x (fold_left (fun s n => match add_interval s (Ivl n n) with Some s' => s' | None => s end) l []) <-> In x l).
  { assert (G : forall m, canonical m -> 
        canonical (fold_left (fun s n => match add_interval s (Ivl n n) with Some s' => s' | None => s end) l m) /\
        forall x, mem x (fold_left (fun s n => match add_interval s (Ivl n n) with Some s' => s' | None => s end) l m) <-> mem x m \/ In x l).
    { clear H. induction l as [|n l IH]; intros m Cm; cbn [fold_left].
      - split; auto. intro x. simpl. tauto.
      - destruct (add_interval_ok m (Ivl n n)) as (s & E & C1 & M1 & _); auto; [simpl; lia|]. rewrite E.
        destruct (IH s C1) as [A B]. split; auto. intro x. rewrite B, M1. simpl. split; intros [H|H]; try tauto; try lia.
        + destruct H; [left; auto|right; left; lia].
        + destruct H; [left; right; lia|tauto]. }
    destruct (G [] I) as [A B]. split; auto. intro x. rewrite B, mem_nil. tauto. }
  destruct X as [X1 X2]. split; [|exact X2]. split; [exact X1|]. split; [exact I|]. intros x Hx. apply H. apply X2. exact Hx.
Qed.
Definition np_peers (_ : val) : list peerinfo :=
  [ PeerInfo (r 1 1) [("http", (80, 6)); ("dns", (53, 17))]%Z; PeerInfo (r 2 2) [("http", (8080, 6))]%Z; PeerInfo (r 3 9) [] ].
Definition np_cube : dim -> val := fun d => if Nat.eqb d 1 then r 6 6 else if Nat.eqb d 2 then r 443 443 else np_dom d.
Definition np_res := make_conn_props np_ops (fun _ => VI []) np_vset np_peers 2 0 1 np_all np_cube ["http"; "dns"] [].
Definition np_pt (peer proto port : Z) : dim -> Z := fun d => if Nat.eqb d 0 then peer else if Nat.eqb d 1 then proto else port.
Example ex_named_ports :
  map (fun p => contains np_ops p np_res)
    [np_pt 1 6 80; np_pt 1 6 8080; np_pt 2 6 8080; np_pt 2 6 80; np_pt 1 6 53; np_pt 3 6 443; np_pt 3 17 443]%Z =
  [true; false; true; false; false; true; false].
Proof. vm_compute. reflexivity. Qed.
Example ex_named_ports_hypotheses :
  (forall d, In d np_all -> val_valid np_dom d (np_cube d)) /\
  (forall q, In q (np_peers (np_cube 0)) -> val_valid np_dom 0 (pv q) /\
     forall name n proto, assoc_s name (pports q) = Some (n, proto) -> val_mem n (vdom np_ops 2)) /\
  ForallOrdPairs (fun a b => forall x, val_mem x (pv a) -> val_mem x (pv b) -> False) (np_peers (np_cube 0)).
Proof.
  split; [|split].
  - intros d [<-|[<-|[<-|[]]]]; (split; [simpl; lia|]; split; [exact I|]); intros x; cbn; rewrite ?mem_cons, ?mem_nil; simpl; lia.
  - intros q [<-|[<-|[<-|[]]]]; (split; [split; [simpl; lia|]; split; [exact I|]; intros x; cbn; rewrite ?mem_cons, ?mem_nil; simpl; lia|]).
    + intros name n proto. cbn [pports assoc_s]. destruct (String.eqb name "http"); [intro E; injection E as <- <-; cbn; rewrite mem_cons; simpl; lia|].
      destruct (String.eqb name "dns"); [intro E; injection E as <- <-; cbn; rewrite mem_cons; simpl; lia|discriminate].
    + intros name n proto. cbn [pports assoc_s]. destruct (String.eqb name "http"); [intro E; injection E as <- <-; cbn; rewrite mem_cons; simpl; lia|discriminate].
    + discriminate.
  - repeat constructor; intros x; cbn; rewrite !mem_cons, !mem_nil; simpl; lia.
Qed.

(** Finding: with several protocols in the cube, a name that stands for a UDP port also opens that
    port for TCP. *)
Theorem C45_named_port_ignores_its_protocol_refuted :
  let c := fun d => if Nat.eqb d 2 then VI [] else if Nat.eqb d 1 then r 6 17 else np_dom d in
  let h := make_conn_props np_ops (fun _ => VI []) np_vset np_peers 2 0 1 np_all c ["dns"] [] in
  contains np_ops (np_pt 1 6 53) h = true /\
  ~ exists peer, In peer (np_peers (c 0)) /\ assoc_s "dns" (pports peer) = Some (53%Z, 6%Z).
Proof.
  cbv zeta. split; [vm_compute; reflexivity|]. intros [q [[<-|[<-|[<-|[]]]] H]]; vm_compute in H; discriminate.
Qed.

(** ** C46: self-connections. *)
Theorem C46_auto_connections_recognised :
  forall V P (O : vops V P) vmem valid, vlaws O vmem valid ->
  forall all, NoDup all -> all <> [] ->
  forall single, (forall d v, valid d v -> (single v = true <-> exists x, forall y, vmem y v <-> y = x)) ->
  forall src dst, In src all -> In dst all -> src <> dst -> (forall v, valid src v <-> valid dst v) ->
  (exists x y, x <> y /\ vmem x (vdom O src) /\ vmem y (vdom O src)) ->
  (exists x y, x <> y /\ vmem x (vdom O dst) /\ vmem y (vdom O dst)) ->
  forall e, good valid all e -> safe O vmem e -> nonempty O vmem (points vmem e) ->
  (are_auto_conns O single all (run O all e) src dst = true <->
   forall pt, in_space O vmem pt -> points vmem e pt -> pt src = pt dst).
Proof.
  intros V P O vmem valid L all N NE single Hs src dst Is Id Ne Hv [x [y [Nxy [Hx Hy]]]] [x' [y' [Nxy' [Hx' Hy']]]] e G S [w [Hw Pw]].
  destruct (run_spec O vmem valid L all N NE false e G S) as [A1 A2]; [discriminate|].
  destruct (auto_spec O vmem valid L single all _ src dst N A1 Ne Hs Hv) as [X1 X2]. split.
  - intros E pt Hp D. destruct (X1 E) as [_ [_ X]]. apply X; auto. apply A2; auto.
  - intro H. apply X2.
    + destruct (in_dec Nat.eq_dec src (act_of (run O all e))) as [|Hn]; auto. exfalso.
      assert (K : forall z, vmem z (vdom O src) -> z = w dst).
      { intros z Hz. specialize (H (upd w src z)).
        assert (Hq : in_space O vmem (upd w src z)).
        { intro d. unfold upd. destruct (Nat.eqb_spec d src) as [->|]; auto. }
        assert (D : points vmem e (upd w src z)).
        { apply A2; auto. apply indom_upd_indep; auto. apply A2; auto. }
        specialize (H Hq D). unfold upd in H. rewrite Nat.eqb_refl in H. destruct (Nat.eqb_spec dst src); congruence. }
      apply Nxy. rewrite (K x), (K y); auto.
    + destruct (in_dec Nat.eq_dec dst (act_of (run O all e))) as [|Hn]; auto. exfalso.
      assert (K : forall z, vmem z (vdom O dst) -> z = w src).
      { intros z Hz. specialize (H (upd w dst z)).
        assert (Hq : in_space O vmem (upd w dst z)).
        { intro d. unfold upd. destruct (Nat.eqb_spec d dst) as [->|]; auto. }
        assert (D : points vmem e (upd w dst z)).
        { apply A2; auto. apply indom_upd_indep; auto. apply A2; auto. }
        specialize (H Hq D). unfold upd in H. rewrite Nat.eqb_refl in H. destruct (Nat.eqb_spec src dst); congruence. }
      apply Nxy'. rewrite (K x'), (K y'); auto.
    + intros p Hp D. apply H; auto. apply A2; auto.
Qed.

(** The removal keeps exactly the connections whose ends lie in no common peer of the set. *)
Theorem C46_auto_connections_removed :
  forall V P (O : vops V P) vmem valid, vlaws O vmem valid ->
  forall all, NoDup all ->
  forall vempty, (forall d, In d all -> valid d (vempty d) /\ forall x, ~ vmem x (vempty d)) ->
  forall src dst, In src all -> In dst all -> src <> dst -> (forall v, valid src v <-> valid dst v) ->
  (* the table of peers: [peer_of v] lists the singletons of the peers whose values make up v *)
  forall peers, (forall v, valid src v -> (forall u, In u (peers v) -> valid src u) /\
                                          (forall x, vmem x v -> exists u, In u (peers v) /\ vmem x u)) ->
  forall e, good valid all e -> safe O vmem e -> nonempty O vmem (points vmem e) ->
  let h := run O all e in
  let members := peers (vor O (project O vempty all h src) (project O vempty all h dst)) in
  forall pt, in_space O vmem pt ->
  (contains O pt (without_auto O vempty peers all h src dst) = true <->
   points vmem e pt /\ ~ exists u, In u members /\ vmem (pt src) u /\ vmem (pt dst) u) /\
  (points vmem e pt -> pt src = pt dst -> contains O pt (without_auto O vempty peers all h src dst) = false).
Proof.
  intros V P O vmem valid L all N vempty Ve src dst Is Id Ne Hv peers Hpeers e G S [w [Hw Pw]] h members pt Hp.
  assert (NE : all <> []) by (intros ->; destruct Is).
  destruct (run_spec O vmem valid L all N NE false e G S) as [A1 A2]; [discriminate|].
  assert (B : hbool h = true).
  { apply (hbool_spec O vmem valid L false all _ N A1). exists w. split; auto. apply A2; auto. }
  destruct (Ve src Is) as [Es1 Es2]. destruct (Ve dst Id) as [Ed1 Ed2].
  destruct (project_spec O vmem valid L all N false h src vempty A1 B Es1 Es2) as [Vs Ms].
  destruct (project_spec O vmem valid L all N false h dst vempty A1 B Ed1 Ed2) as [Vd Md].
  set (u := vor O (project O vempty all h src) (project O vempty all h dst)) in *.
  assert (Vu : valid src u) by (apply (L_or_valid _ _ _ L); auto; apply Hv; auto).
  destruct (Hpeers u Vu) as [Hu1 Hu2].
  destruct (auto_conns_spec O vmem valid L vempty peers all h src dst N Is Id Ne A1 Ve) as [C1 C2].
  { intros v Hin. split; [apply Hu1; auto|apply Hv; apply Hu1; auto]. }
  fold u in C2. fold members in C2.
  destruct (h_sub_spec O vmem valid L false all _ _ N NE A1 C1) as [D1 [_ D2]].
  { apply (sub_safe_intro O vmem valid L all N false); auto. left. exists w. split; auto. apply A2; auto. }
  assert (Q : contains O pt (without_auto O vempty peers all h src dst) = true <->
   points vmem e pt /\ ~ exists u, In u members /\ vmem (pt src) u /\ vmem (pt dst) u).
  { rewrite (contains_spec O vmem valid L false all) by auto. unfold without_auto, h. unfold h in D2, C2. rewrite D2, C2 by auto. rewrite <- A2 by auto. tauto. }
  split; auto. intros Dp Ep. destruct (contains O pt (without_auto O vempty peers all h src dst)) eqn:Ec; auto.
  exfalso. destruct (proj1 Q eq_refl) as [_ K]. apply K. destruct (Hu2 (pt src)) as [v [V1 V2]].
  { unfold u. apply (L_or _ _ _ L src); auto; [apply Hv; auto|]. left. apply Ms. exists pt. split; auto. split; auto. apply A2; auto. }
  exists v. rewrite <- Ep. auto.
Qed.

(** Concrete: peers are the numbers 1-65535 in dimensions 0 and 1. *)
Definition ex_single (v : val) : bool := match v with VI l => iset_is_single_value l | _ => false end.
Definition ex_auto : hexp val := HOr (HCube [(0, r 1 1); (1, r 1 1)]) (HCube [(0, r 3 3); (1, r 3 3)]).
Definition ex_peers (v : val) : list val :=
  match v with VI l => flat_map (fun i => map (fun k => r (lo i + Z.of_nat k) (lo i + Z.of_nat k)) (seq 0 (Z.to_nat (hi i - lo i + 1)))) l | _ => [] end.
Example ex_auto_conns :
  are_auto_conns ex_ops ex_single ex_all (run ex_ops ex_all ex_auto) 0 1 = true /\
  are_auto_conns ex_ops ex_single ex_all (run ex_ops ex_all ex_min) 0 1 = false /\
  hbool (without_auto ex_ops (fun _ => VI []) ex_peers ex_all (run ex_ops ex_all ex_auto) 0 1) = false /\
  map (fun p => contains ex_ops p (without_auto ex_ops (fun _ => VI []) ex_peers ex_all (run ex_ops ex_all (HCube [(0, r 1 3); (1, r 2 4)])) 0 1))
    [np_pt 1 2 7; np_pt 2 2 7; np_pt 3 3 7; np_pt 3 2 7; np_pt 4 4 7]%Z = [true; false; false; true; false].
Proof. vm_compute. auto. Qed.
Example ex_auto_hypotheses : good (val_valid ex_dom) ex_all ex_auto /\ safe ex_ops val_mem ex_auto /\
  nonempty ex_ops val_mem (points val_mem ex_auto).
Proof.
  split; [unfold ex_auto; goods|]. split; [cbn; auto|]. exists (np_pt 1 1 0). split.
  - intros [|[|[|d]]]; unfold ex_ops, ex_dom, np_pt; cbn; rewrite ?mem_cons, ?mem_nil; simpl; try lia; intros [].
  - left. intros d v [E|[E|[]]]; injection E as <- <-; cbn; rewrite mem_cons; simpl; lia.
Qed.

Print Assumptions C14_projection_exact.
Print Assumptions C14_projection_on_words_refuted.
Print Assumptions C14_projection_of_empty_refuted.
Print Assumptions C15_reorder_keeps_the_set.
Print Assumptions C15_reorder_by_any_map.
Print Assumptions C15_minimize_keeps_the_set_and_does_not_grow.
Print Assumptions C15_reorder_of_everything_refuted.
Print Assumptions C44_cube_to_properties_exact.
Print Assumptions C44_empty_word_refuted.
Print Assumptions C45_named_ports_resolved_per_peer.
Print Assumptions C45_single_protocol.
Print Assumptions C45_named_port_ignores_its_protocol_refuted.
Print Assumptions C46_auto_connections_recognised.
Print Assumptions C46_auto_connections_removed.
