(** * Claims C08 - C13: multi-dimensional sets (CanonicalHyperCubeSet and ConnectivityProperties).

    Every theorem is stated for all value algebras [O] obeying the laws [vlaws]; the last
    section instantiates them with the modelled interval sets. *)
From Coq Require Import ZArith List Bool Arith Lia.
From Verif Require Import IntervalModel IntervalFacts HyperModel HyperFacts HyperOps HyperDims HyperTop
                          HyperContain HyperInst.
Import ListNotations.
Local Open Scope nat_scope.

(** ** Specification: programs building sets, and the points they denote. *)
Inductive hexp (V : Type) :=
| HAll (c : cls)                            (* an object of class c containing everything *)
| HEmpty (c : cls)                          (* CanonicalHyperCubeSet(dims) / ConnectivityProperties() *)
| HCube (cube : list (dim * V))             (* create_from_cube *)
| HOr (a b : hexp V)                        (* a | b *)
| HAnd (a b : hexp V)                       (* a & b *)
| HSub (a b : hexp V)                       (* a - b *)
| HAddCube (a : hexp V) (cube : list (dim * V))   (* a.add_cube(cube, dims) *)
| HAddHole (a : hexp V) (cube : list (dim * V)).  (* a.add_hole(cube, dims) *)
Arguments HAll {V}. Arguments HEmpty {V}. Arguments HCube {V}. Arguments HOr {V}. Arguments HAnd {V}.
Arguments HSub {V}. Arguments HAddCube {V}. Arguments HAddHole {V}.

Section Spec.
Context {V P : Type} (O : vops V P) (vmem : P -> V -> Prop) (valid : dim -> V -> Prop) (all : list dim).

(** [pt] is a point of a cube: each coordinate lies in the cube's value for that dimension. *)
Definition pt_in_cube (pt : dim -> P) (cube : list (dim * V)) : Prop :=
  forall d v, In (d, v) cube -> vmem (pt d) v.

Fixpoint points (e : hexp V) (pt : dim -> P) : Prop :=
  match e with
  | HAll _ => True
  | HEmpty _ => False
  | HCube cube => pt_in_cube pt cube
  | HOr a b => points a pt \/ points b pt
  | HAnd a b => points a pt /\ points b pt
  | HSub a b => points a pt /\ ~ points b pt
  | HAddCube a cube => points a pt \/ pt_in_cube pt cube
  | HAddHole a cube => points a pt /\ ~ pt_in_cube pt cube
  end.

(** Points all of whose coordinates are in the domain of their dimension. *)
Definition in_space (pt : dim -> P) : Prop := forall d, vmem (pt d) (vdom O d).

(** The cubes handed in are well formed: at least one dimension, dimensions in the global
    order without repetition, values belonging to their dimension. *)
Definition good_cube (cube : list (dim * V)) : Prop :=
  cube <> [] /\ subseq (map fst cube) all /\ (forall d v, In (d, v) cube -> valid d v).
Fixpoint good (e : hexp V) : Prop :=
  match e with
  | HAll _ | HEmpty _ => True
  | HCube cube => good_cube cube
  | HOr a b | HAnd a b | HSub a b => good a /\ good b
  | HAddCube a cube | HAddHole a cube => good a /\ good_cube cube
  end.

(** No subtraction whose left operand is an empty set, unless the right operand is empty or
    everything ([E - x] with empty [E] may go wrong, see [C08_subtraction_from_empty_refuted]). *)
Definition nonempty (S : (dim -> P) -> Prop) := exists pt, in_space pt /\ S pt.
Definition trivial (S : (dim -> P) -> Prop) :=
  (forall pt, in_space pt -> ~ S pt) \/ (forall pt, in_space pt -> S pt).
Fixpoint safe (e : hexp V) : Prop :=
  match e with
  | HAll _ | HEmpty _ | HCube _ => True
  | HOr a b | HAnd a b => safe a /\ safe b
  | HSub a b => safe a /\ safe b /\ (nonempty (points a) \/ trivial (points b))
  | HAddCube a _ => safe a
  | HAddHole a cube => safe a /\ (nonempty (points a) \/ trivial (fun pt => pt_in_cube pt cube))
  end.

(** All objects are plain CanonicalHyperCubeSet objects. *)
Fixpoint plain (e : hexp V) : Prop :=
  match e with
  | HAll c | HEmpty c => c = Plain
  | HCube _ => True
  | HOr a b | HAnd a b | HSub a b => plain a /\ plain b
  | HAddCube a _ | HAddHole a _ => plain a
  end.

(** ** Running a program on the model. *)
Fixpoint run (e : hexp V) : hc V :=
  match e with
  | HAll c => hall c
  | HEmpty c => hempty c all
  | HCube cube => create_from_cube O all cube
  | HOr a b => h_or O all (run a) (run b)
  | HAnd a b => h_and O all (run a) (run b)
  | HSub a b => h_sub O all (run a) (run b)
  | HAddCube a cube => add_cube O all (run a) cube
  | HAddHole a cube => add_hole O all (run a) cube
  end.
End Spec.

(** ** The main lemma *)
Section Main.
Context {V P : Type} (O : vops V P) (vmem : P -> V -> Prop) (valid : dim -> V -> Prop)
        (L : vlaws O vmem valid) (all : list dim) (N : NoDup all) (NE : all <> []).

Lemma good_cube_ok cube : good_cube valid all cube -> cube_ok valid all cube.
Proof.
  intros [A [B C]]. split; auto. split; auto. apply Forall_forall. intros [d v] H. apply (C d v H).
Qed.
Lemma pt_in_cube_iff pt cube : pt_in_cube vmem pt cube <-> in_cube vmem pt cube.
Proof.
  unfold pt_in_cube, in_cube. rewrite Forall_forall. split.
  - intros H [d v] Hin. apply (H d v Hin).
  - intros H d v Hin. apply (H (d, v) Hin).
Qed.

Lemma override_self c (h : hc V) : hbool h = true \/ act_of h <> [] \/ True -> cls_of h = c -> h <> Leaf -> h <> Fail ->
  override c h = h.
Proof. intros _ <- H1 H2. destruct h; simpl; congruence. Qed.

Lemma obj_override st h c : obj O vmem valid st all h -> cls_of h = c -> override c h = h.
Proof.
  intros [_ [[c0 ->]|[[c0 [a [-> _]]]|Pr]]] <-; auto.
  destruct (proper_shape _ _ _ _ _ _ Pr) as [c1 [d [ds [ls [-> _]]]]]. reflexivity.
Qed.

Lemma sub_safe_intro st h1 h2 : obj O vmem valid st all h1 -> obj O vmem valid st all h2 ->
  (nonempty O vmem (denot vmem h1) \/ trivial O vmem (denot vmem h2)) -> sub_safe all h1 h2 = true.
Proof.
  intros O1 O2 [H|[H|H]]; unfold sub_safe.
  - rewrite (proj2 (hbool_spec O vmem valid L st all h1 N O1)); auto.
  - destruct (hbool h2) eqn:E.
    + exfalso. apply (hbool_spec O vmem valid L st all h2 N O2) in E as [p [Hp D]]. apply (H p Hp D).
    + cbn [negb]. rewrite orb_true_r. reflexivity.
  - rewrite (proj2 (is_all_spec O vmem valid L st all h2 N O2)) by auto.
    rewrite !orb_true_r. reflexivity.
Qed.

Lemma nonempty_ext S S' : (forall p, in_space O vmem p -> (S p <-> S' p)) -> nonempty O vmem S -> nonempty O vmem S'.
Proof. intros H [p [Hp D]]. exists p. split; auto. apply H; auto. Qed.
Lemma trivial_ext S S' : (forall p, in_space O vmem p -> (S p <-> S' p)) -> trivial O vmem S -> trivial O vmem S'.
Proof. intros H [A|A]; [left|right]; intros p Hp; rewrite <- H; auto. Qed.

Lemma cube_values cube : good_cube valid all cube ->
  forallb (fun p => vbool O (snd p)) cube = true \/ (forall pt, in_space O vmem pt -> ~ pt_in_cube vmem pt cube) /\
  forallb (fun p => vbool O (snd p)) cube = false.
Proof.
  intros [_ [_ C]]. destruct (forallb (fun p => vbool O (snd p)) cube) eqn:E; auto. right. split; auto.
  intros pt Hp H. assert (E' : forallb (fun p => vbool O (snd p)) cube = true); [|congruence].
  apply forallb_forall. intros [d v] Hin. simpl. apply (L_bool _ _ _ L d); eauto.
Qed.

Lemma run_spec st e : good valid all e -> safe O vmem e -> (st = true -> plain e) ->
  obj O vmem valid st all (run O all e) /\
  (forall p, in_space O vmem p -> (denot vmem (run O all e) p <-> points vmem e p)).
Proof.
  induction e as [c|c|cube|a IHa b IHb|a IHa b IHb|a IHa b IHb|a IHa cube|a IHa cube]; cbn [good safe plain run points]; intros G S T.
  - split; [apply hall_obj; auto|]. intros p Hp. split; intros _; exact I.
  - split; [apply hempty_obj; auto|]. intros p Hp. split; [apply empty_denot; auto|intros []].
  - destruct (create_from_cube_spec O vmem valid L st all cube N NE (good_cube_ok _ G)) as [A [B C]].
    split; auto. intros p Hp. rewrite pt_in_cube_iff. apply C; auto.
  - destruct G as [G1 G2]. destruct S as [S1 S2].
    destruct IHa as [A1 A2]; auto; [intro E; apply T; auto|]. destruct IHb as [B1 B2]; auto; [intro E; apply T; auto|].
    destruct (h_or_spec O vmem valid L st all _ _ N NE A1 B1) as [C [D E]]. split; auto.
    intros p Hp. rewrite E, A2, B2 by auto. tauto.
  - destruct G as [G1 G2]. destruct S as [S1 S2].
    destruct IHa as [A1 A2]; auto; [intro E; apply T; auto|]. destruct IHb as [B1 B2]; auto; [intro E; apply T; auto|].
    destruct (h_and_spec O vmem valid L st all _ _ N NE A1 B1) as [C [D E]]. split; auto.
    intros p Hp. rewrite E, A2, B2 by auto. tauto.
  - destruct G as [G1 G2]. destruct S as [S1 [S2 S3]].
    destruct IHa as [A1 A2]; auto; [intro E; apply T; auto|]. destruct IHb as [B1 B2]; auto; [intro E; apply T; auto|].
    destruct (h_sub_spec O vmem valid L st all _ _ N NE A1 B1) as [C [D E]].
    { apply (sub_safe_intro st); auto. destruct S3 as [S3|S3]; [left|right].
      - eapply nonempty_ext; [|eauto]. intros p Hp. symmetry. auto.
      - eapply trivial_ext; [|eauto]. intros p Hp. symmetry. auto. }
    split; auto. intros p Hp. rewrite E, A2, B2 by auto. tauto.
  - destruct G as [G1 G2]. destruct IHa as [A1 A2]; auto.
    unfold add_cube. destruct cube as [|q0 qt]; [destruct G2; congruence|].
    destruct (cube_values _ G2) as [E|[Hn E]]; rewrite E.
    + destruct (create_from_cube_spec O vmem valid L st all _ N NE (good_cube_ok _ G2)) as [C1 [_ C2]].
      destruct (h_or_spec O vmem valid L st all _ _ N NE A1 C1) as [C [D F]].
      rewrite (obj_override st) by auto. split; auto.
      intros p Hp. rewrite F, A2, C2, pt_in_cube_iff by auto. tauto.
    + split; auto. intros p Hp. rewrite A2 by auto. specialize (Hn p Hp). tauto.
  - destruct G as [G1 G2]. destruct S as [S1 S2]. destruct IHa as [A1 A2]; auto.
    unfold add_hole. destruct cube as [|q0 qt]; [destruct G2; congruence|].
    destruct (cube_values _ G2) as [E|[Hn E]]; rewrite E.
    + destruct (create_from_cube_spec O vmem valid L st all _ N NE (good_cube_ok _ G2)) as [C1 [_ C2]].
      destruct (h_sub_spec O vmem valid L st all _ _ N NE A1 C1) as [C [D F]].
      { apply (sub_safe_intro st); auto. destruct S2 as [S2|S2]; [left|right].
        - eapply nonempty_ext; [|eauto]. intros p Hp. symmetry. auto.
        - eapply trivial_ext; [|eauto]. intros p Hp. rewrite pt_in_cube_iff. symmetry. auto. }
      rewrite (obj_override st) by auto. split; auto.
      intros p Hp. rewrite F, A2, C2, pt_in_cube_iff by auto. tauto.
    + split; auto. intros p Hp. rewrite A2 by auto. specialize (Hn p Hp). tauto.
Qed.
End Main.

(** ** C08 + C13: set operations are exact, as observed by membership queries. *)
Theorem C08_cube_set_algebra_exact :
  forall V P (O : vops V P) vmem valid, vlaws O vmem valid ->
  forall all, NoDup all -> all <> [] ->
  forall e, good valid all e -> safe O vmem e ->
  forall pt, in_space O vmem pt -> (contains O pt (run O all e) = true <-> points vmem e pt).
Proof.
  intros V P O vmem valid L all N NE e G S pt Hp.
  destruct (run_spec O vmem valid L all N NE false e G S) as [A B]; [discriminate|].
  rewrite (contains_spec O vmem valid L false all) by auto. apply B; auto.
Qed.

(** Subtraction from a possibly empty object is exact as soon as the object is non-empty, or the
    other operand is empty or everything, or the first active dimension of the two is active in
    self (this includes every object that was empty from the start: such an object has all its
    dimensions active; one emptied by an intersection keeps the active dimensions of the operands only). *)
Theorem C08_subtraction_exact_when_first_dimension_active :
  forall V P (O : vops V P) vmem valid, vlaws O vmem valid ->
  forall all, NoDup all -> all <> [] ->
  forall a b, good valid all a -> safe O vmem a -> good valid all b -> safe O vmem b ->
  act_of (run O all a) = all ->
  forall pt, in_space O vmem pt ->
    (contains O pt (h_sub O all (run O all a) (run O all b)) = true <-> points vmem a pt /\ ~ points vmem b pt).
Proof.
  intros V P O vmem valid L all N NE a b Ga Sa Gb Sb Ea pt Hp.
  destruct (run_spec O vmem valid L all N NE false a Ga Sa) as [A1 A2]; [discriminate|].
  destruct (run_spec O vmem valid L all N NE false b Gb Sb) as [B1 B2]; [discriminate|].
  destruct (h_sub_spec O vmem valid L false all _ _ N NE A1 B1) as [C [D E]].
  - unfold sub_safe. rewrite Ea.
    destruct (by_order all (all ++ act_of (run O all b))) as [|d t] eqn:Eb; [apply orb_true_r|].
    rewrite (proj2 (mem_dim_In d all)); [apply orb_true_r|].
    assert (H : In d (by_order all (all ++ act_of (run O all b)))) by (rewrite Eb; simpl; auto).
    apply by_order_in in H. tauto.
  - rewrite (contains_spec O vmem valid L false all) by auto. rewrite E, A2, B2 by auto. tauto.
Qed.

(** ** C09: containment is exactly inclusion (and the internal assertions never fail). *)
Theorem C09_containment_exact :
  forall V P (O : vops V P) vmem valid, vlaws O vmem valid ->
  forall all, NoDup all -> all <> [] ->
  forall a b, good valid all a -> safe O vmem a -> good valid all b -> safe O vmem b ->
  exists r, h_contained O all (run O all a) (run O all b) = Some r /\
    (r = true <-> forall pt, in_space O vmem pt -> points vmem a pt -> points vmem b pt).
Proof.
  intros V P O vmem valid L all N NE a b Ga Sa Gb Sb.
  destruct (run_spec O vmem valid L all N NE false a Ga Sa) as [A1 A2]; [discriminate|].
  destruct (run_spec O vmem valid L all N NE false b Gb Sb) as [B1 B2]; [discriminate|].
  destruct (h_contained_spec O vmem valid L false all _ _ N A1 B1) as [r [E R]]. exists r. split; auto.
  rewrite R. split; intros H p Hp D.
  - apply B2; auto. apply H; auto. apply A2; auto.
  - apply B2; auto. apply H; auto. apply A2; auto.
Qed.

(** ** C10: plain cube sets are canonical: equality is set equality; truth value is non-emptiness. *)
Theorem C10_plain_equality_is_set_equality :
  forall V P (O : vops V P) vmem valid, vlaws O vmem valid ->
  forall all, NoDup all -> all <> [] ->
  forall a b, good valid all a -> safe O vmem a -> plain a -> good valid all b -> safe O vmem b -> plain b ->
  (hc_eqb O (run O all a) (run O all b) = true <->
   forall pt, in_space O vmem pt -> (points vmem a pt <-> points vmem b pt)).
Proof.
  intros V P O vmem valid L all N NE a b Ga Sa Pa Gb Sb Pb.
  destruct (run_spec O vmem valid L all N NE true a Ga Sa) as [A1 A2]; [auto|].
  destruct (run_spec O vmem valid L all N NE true b Gb Sb) as [B1 B2]; [auto|]. split.
  - intros E p Hp. rewrite <- A2, <- B2 by auto. apply (eqb_objects_sound O vmem valid L true all); auto.
  - intro H. apply (eqb_objects_complete O vmem valid L all); auto. intros p Hp.
    rewrite A2, B2 by auto. auto.
Qed.

(** For objects of any class (ConnectivityProperties included), equal objects denote the same set ... *)
Theorem C10_equality_sound :
  forall V P (O : vops V P) vmem valid, vlaws O vmem valid ->
  forall all, NoDup all -> all <> [] ->
  forall a b, good valid all a -> safe O vmem a -> good valid all b -> safe O vmem b ->
  hc_eqb O (run O all a) (run O all b) = true ->
  forall pt, in_space O vmem pt -> (points vmem a pt <-> points vmem b pt).
Proof.
  intros V P O vmem valid L all N NE a b Ga Sa Gb Sb E p Hp.
  destruct (run_spec O vmem valid L all N NE false a Ga Sa) as [A1 A2]; [discriminate|].
  destruct (run_spec O vmem valid L all N NE false b Gb Sb) as [B1 B2]; [discriminate|].
  rewrite <- A2, <- B2 by auto. apply (eqb_objects_sound O vmem valid L false all); auto.
Qed.

(** ... the truth value tells emptiness and [is_all] tells fullness. *)
Theorem C10_truth_value_is_nonemptiness :
  forall V P (O : vops V P) vmem valid, vlaws O vmem valid ->
  forall all, NoDup all -> all <> [] ->
  forall a, good valid all a -> safe O vmem a ->
  (hbool (run O all a) = true <-> exists pt, in_space O vmem pt /\ points vmem a pt) /\
  (is_all (run O all a) = true <-> forall pt, in_space O vmem pt -> points vmem a pt).
Proof.
  intros V P O vmem valid L all N NE a Ga Sa.
  destruct (run_spec O vmem valid L all N NE false a Ga Sa) as [A1 A2]; [discriminate|].
  rewrite (hbool_spec O vmem valid L false all), (is_all_spec O vmem valid L false all) by auto.
  split; split.
  - intros [p [Hp D]]. exists p. split; auto. apply A2; auto.
  - intros [p [Hp D]]. exists p. split; auto. apply A2; auto.
  - intros H p Hp. apply A2; auto. apply H; auto.
  - intros H p Hp. apply A2; auto. 
Qed.

(** ** C11: iterating over an object yields disjoint non-empty cubes that cover it exactly. *)
Definition pt_in_values {V P} (vmem : P -> V -> Prop) (pt : dim -> P) (ds : list dim) (k : list V) : Prop :=
  Forall2 (fun d v => vmem (pt d) v) ds k.

Theorem C11_cubes_partition_the_set :
  forall V P (O : vops V P) vmem valid, vlaws O vmem valid ->
  forall all, NoDup all -> all <> [] ->
  forall a, good valid all a -> safe O vmem a ->
  let h := run O all a in
  let dims := if is_all h then all else act_of h in
  let cubes := iter_cubes O all h in
  (forall pt, in_space O vmem pt -> (points vmem a pt <-> exists k, In k cubes /\ pt_in_values vmem pt dims k)) /\
  (forall i j k1 k2 pt, nth_error cubes i = Some k1 -> nth_error cubes j = Some k2 ->
     pt_in_values vmem pt dims k1 -> pt_in_values vmem pt dims k2 -> i = j) /\
  (forall k, In k cubes -> length k = length dims /\ exists pt, pt_in_values vmem pt dims k) /\
  hlen h = length cubes.
Proof.
  intros V P O vmem valid L all N NE a Ga Sa h dims cubes.
  destruct (run_spec O vmem valid L all N NE false a Ga Sa) as [A1 A2]; [discriminate|].
  destruct (iter_spec O vmem valid L false all _ N A1) as [I1 [I2 [I3 I4]]].
  fold h in A1, A2, I1, I2, I3, I4. fold cubes in I1, I2, I3, I4. unfold iter_dims in *. fold dims in I1, I2, I3.
  assert (Q : forall ds pt k, pt_in_values vmem pt ds k <-> cmem vmem ds pt k).
  { clear. intros ds pt. induction ds as [|d ds IH]; intros [|v k]; simpl; split; try tauto.
    - intros _. constructor.
    - intros H; inversion H.
    - intros H; inversion H.
    - intros H; inversion H; subst. split; auto. apply IH; auto.
    - intros [H1 H2]. constructor; auto. apply IH; auto. }
  split; [|split; [|split]]; auto.
  - intros pt Hp. rewrite <- A2, I1 by auto. split; intros [k [H1 H2]]; exists k; (split; [auto|apply Q; auto]).
  - clear - I3 Q. intros i j k1 k2 pt E1 E2 M1 M2. apply Q in M1, M2. revert i j E1 E2.
    induction I3 as [|k l Hk I3 IH]; intros i j E1 E2; [destruct i; discriminate|].
    rewrite Forall_forall in Hk.
    destruct i as [|i], j as [|j]; simpl in E1, E2.
    + reflexivity.
    + exfalso. injection E1 as ->. apply nth_error_In in E2. apply (Hk _ E2 pt); auto.
    + exfalso. injection E2 as ->. apply nth_error_In in E1. apply (Hk _ E1 pt); auto.
    + f_equal. apply IH; auto.
  - intros k Hk. destruct (I2 k Hk) as [Lk Fk]. split; auto.
    assert (Nd : NoDup dims).
    { unfold dims. destruct (is_all h); auto.
      destruct (obj_cases _ _ _ _ _ _ A1) as [E|[[_ [_ [_ [_ S]]]]|[_ [S _]]]].
      - rewrite E. constructor.
      - eapply subseq_nodup; eauto.
      - eapply subseq_nodup; eauto. }
    clear - L Lk Fk Nd. revert k Lk Fk. induction dims as [|d ds IH]; intros [|v k] Lk Fk; try discriminate.
    + destruct (indom_ex O vmem valid L) as [p _]. exists p. constructor.
    + inversion Fk as [|? ? [x Hx] Fk']; subst. inversion Nd; subst.
      destruct (IH H2 k) as [p Hp]; auto. exists (upd p d x). constructor; [rewrite upd_same; auto|].
      revert Hp. unfold pt_in_values. clear - H1. revert k. induction ds as [|e ds IH]; intros k Hp; inversion Hp; subst; constructor.
      * rewrite upd_other; auto. intro. subst. apply H1. simpl; auto.
      * apply IH; auto. intro. apply H1. simpl; auto.
Qed.

(** ** C12: an object made from one cube contains exactly that cube's points; adding a cube or a
       hole to a non-empty object adds or removes exactly these points. *)
Theorem C12_single_cube_exact :
  forall V P (O : vops V P) vmem valid, vlaws O vmem valid ->
  forall all, NoDup all -> all <> [] ->
  forall cube, good_cube valid all cube ->
  let h := create_from_cube O all cube in
  (forall pt, in_space O vmem pt -> (contains O pt h = true <-> forall d v, In (d, v) cube -> vmem (pt d) v)) /\
  (forall pt, in_space O vmem pt -> (contains O pt (add_cube O all (hempty Conn all) cube) = true <->
      forall d v, In (d, v) cube -> vmem (pt d) v)).
Proof.
  intros V P O vmem valid L all N NE cube G h. split; intros pt Hp.
  - apply (C08_cube_set_algebra_exact V P O vmem valid L all N NE (HCube cube)); simpl; auto.
  - rewrite (C08_cube_set_algebra_exact V P O vmem valid L all N NE (HAddCube (HEmpty Conn) cube)); simpl; auto.
    unfold pt_in_cube. tauto.
Qed.

Theorem C12_add_cube_and_hole_exact :
  forall V P (O : vops V P) vmem valid, vlaws O vmem valid ->
  forall all, NoDup all -> all <> [] ->
  forall a cube, good valid all a -> safe O vmem a -> good_cube valid all cube ->
  (exists pt, in_space O vmem pt /\ points vmem a pt) ->
  forall pt, in_space O vmem pt ->
  (contains O pt (add_cube O all (run O all a) cube) = true <->
     contains O pt (run O all a) = true \/ (forall d v, In (d, v) cube -> vmem (pt d) v)) /\
  (contains O pt (add_hole O all (run O all a) cube) = true <->
     contains O pt (run O all a) = true /\ ~ (forall d v, In (d, v) cube -> vmem (pt d) v)).
Proof.
  intros V P O vmem valid L all N NE a cube G S Gc Ne pt Hp.
  rewrite (C08_cube_set_algebra_exact V P O vmem valid L all N NE a G S) by auto. split.
  - apply (C08_cube_set_algebra_exact V P O vmem valid L all N NE (HAddCube a cube)); simpl; auto.
  - apply (C08_cube_set_algebra_exact V P O vmem valid L all N NE (HAddHole a cube)); simpl; auto.
Qed.

(** ** C13: the sample item returned for a non-empty object is one of its points. *)
Theorem C13_first_item_is_a_member :
  forall V P (O : vops V P) vmem valid, vlaws O vmem valid ->
  forall all, NoDup all -> all <> [] ->
  forall a, good valid all a -> safe O vmem a ->
  match first_item O all (run O all a) with
  | None => forall pt, in_space O vmem pt -> ~ points vmem a pt
  | Some xs => length xs = length all /\
      forall pt, in_space O vmem pt -> map pt all = xs -> points vmem a pt
  end.
Proof.
  intros V P O vmem valid L all N NE a Ga Sa.
  destruct (run_spec O vmem valid L all N NE false a Ga Sa) as [A1 A2]; [discriminate|].
  pose proof (first_item_spec O vmem valid L false all _ N A1) as F.
  destruct (first_item O all (run O all a)) as [xs|].
  - destruct F as [F1 F2]. split; auto. intros pt Hp E. apply A2; auto. apply F2; auto.
  - intros pt Hp H. apply A2 in H; auto.
    assert (hbool (run O all a) = true); [|congruence]. apply (hbool_spec O vmem valid L false all); eauto.
Qed.

(** Some point of the space has the sampled coordinates, so the previous theorem is not vacuous. *)
Theorem C13_first_item_in_space :
  forall V P (O : vops V P) vmem valid, vlaws O vmem valid ->
  forall all, NoDup all -> all <> [] ->
  forall a, good valid all a -> safe O vmem a ->
  forall xs, first_item O all (run O all a) = Some xs ->
  exists pt, in_space O vmem pt /\ map pt all = xs /\ points vmem a pt /\ contains O pt (run O all a) = true.
Proof.
  intros V P O vmem valid L all N NE a Ga Sa xs E.
  destruct (run_spec O vmem valid L all N NE false a Ga Sa) as [A1 A2]; [discriminate|].
  pose proof (first_item_spec O vmem valid L false all _ N A1) as F. rewrite E in F. destruct F as [F1 F2].
  destruct (indom_ex O vmem valid L) as [q Hq].
  assert (X : exists pt, map pt all = xs /\ forall d, ~ In d all -> pt d = q d).
  { clear - N F1. revert xs F1. induction all as [|d t IH]; intros [|x xs] F1; try discriminate.
    - exists q. auto.
    - inversion N; subst. injection F1 as F1. destruct (IH H2 xs F1) as [p [E H]].
      exists (upd p d x). split.
      + simpl. rewrite upd_same. f_equal. rewrite <- E. apply map_ext_in. intros e He. apply upd_other.
        intro. subst. contradiction.
      + intros e He. simpl in He. rewrite upd_other; auto. }
  destruct X as [pt [Ept Hpt]]. destruct (F2 pt Ept) as [D1 D2].
  assert (Hp : in_space O vmem pt).
  { intro d. destruct (in_dec Nat.eq_dec d all) as [H|H]; auto. rewrite (Hpt d H). apply Hq. }
  exists pt. split; auto. split; auto. split; [apply A2; auto|].
  rewrite (contains_spec O vmem valid L false all); auto.
Qed.

(** ** Concrete dimensions: 0, 1 = port-like intervals 1-65535, 2 = words. *)
Definition ex_dom (d : dim) : val := if Nat.leb d 1 then VI [Ivl 1 65535] else VN true [].
Definition ex_all : list dim := [0; 1; 2].
Definition ex_ops := val_ops ex_dom.
Example ex_dom_ok : doms_ok ex_dom.
Proof. intro d. unfold ex_dom. destruct (Nat.leb d 1); simpl; repeat split; try lia; discriminate. Qed.

Theorem C08_interval_instance_exact : forall dom all, doms_ok dom -> NoDup all -> all <> [] ->
  forall e, good (val_valid dom) all e -> safe (val_ops dom) val_mem e ->
  forall pt, in_space (val_ops dom) val_mem pt ->
  (contains (val_ops dom) pt (run (val_ops dom) all e) = true <-> points val_mem e pt).
Proof. intros dom all D N NE e G S. eapply C08_cube_set_algebra_exact; eauto. apply val_laws; auto. Qed.

Definition r (a b : Z) : val := VI [Ivl a b].
Lemma r_valid d a b : (1 <= a <= b)%Z -> (b <= 65535)%Z -> d <= 1 -> val_valid ex_dom d (r a b).
Proof.
  intros H1 H2 H3. unfold val_valid, ex_dom, r. destruct (Nat.leb_spec d 1); [|lia]. cbn [val_wf kind_ok val_mem].
  split; [simpl; lia|]. split; auto. intros x. rewrite !mem_cons, !mem_nil. simpl. lia.
Qed.

Ltac good_tac := unfold good_cube; split; [discriminate|]; split; [cbn; repeat constructor|];
  let d := fresh in let v := fresh in let H := fresh in intros d v H;
  repeat (destruct H as [H|H]; [injection H as <- <-; apply r_valid; lia|]); destruct H.
Ltac goods := cbn [good]; repeat (match goal with |- _ /\ _ => first [good_tac|split] | |- good_cube _ _ _ => good_tac end).

(** A program meeting all hypotheses: ([0 in 10-20, 1 in 80-80] | [1 in 80-443]) - [0 in 15-30]. *)
Definition ex_prog : hexp val :=
  HSub (HOr (HCube [(0, r 10 20); (1, r 80 80)]) (HCube [(1, r 80 443)])) (HCube [(0, r 15 30)]).
Example ex_prog_ok : good (val_valid ex_dom) ex_all ex_prog /\ safe ex_ops val_mem ex_prog /\ plain ex_prog.
Proof.
  split; [|split].
  - unfold ex_prog. goods.
  - cbn [safe ex_prog]. split; [|split]; try (simpl; tauto). left.
    exists (fun d => if Nat.leb d 1 then 80%Z else 0%Z). split.
    + intro d. unfold ex_ops, ex_dom. cbn. destruct (Nat.leb d 1); simpl; rewrite ?mem_cons, ?mem_nil; simpl; lia.
    + simpl. right. intros d v [E|[]]. injection E as <- <-. simpl. rewrite mem_cons. simpl. lia.
  - cbn. auto.
Qed.
Example ex_prog_value : hbool (run ex_ops ex_all ex_prog) = true /\ is_all (run ex_ops ex_all ex_prog) = false.
Proof. vm_compute. auto. Qed.

(** ** Findings *)
(** F1: subtracting from an empty object whose active dimensions were reduced produces an object
    that is true and not equal to the empty set, although it contains no point; or-ing something to
    it then adds foreign points. *)
Definition x1 : hexp val := HCube [(1, r 80 80)].
Definition f1_empty : hexp val := HSub x1 x1.
Definition f1_bad : hexp val := HSub f1_empty (HCube [(0, r 10 20)]).
Theorem C08_subtraction_from_empty_refuted :
  good (val_valid ex_dom) ex_all (HOr f1_bad (HCube [(0, r 10 20)])) /\
  safe ex_ops val_mem f1_empty /\
  hbool (run ex_ops ex_all f1_empty) = false /\
  (* the difference is empty as a set, yet true and different from the empty set *)
  (forall pt, ~ points val_mem f1_bad pt) /\
  hbool (run ex_ops ex_all f1_bad) = true /\
  hc_eqb ex_ops (run ex_ops ex_all f1_bad) (run ex_ops ex_all (HEmpty Plain)) = false /\
  (* and a later union contains a point that belongs to neither operand *)
  exists pt, in_space ex_ops val_mem pt /\
    ~ points val_mem (HOr f1_bad (HCube [(0, r 10 20)])) pt /\
    contains ex_ops pt (run ex_ops ex_all (HOr f1_bad (HCube [(0, r 10 20)]))) = true.
Proof.
  split.
  { unfold ex_prog, f1_bad, f1_empty, x1. goods. }
  split.
  { cbn [safe f1_empty x1]. split; auto. split; auto. left.
    exists (fun d => if Nat.leb d 1 then 80%Z else 0%Z). split.
    + intro d. unfold ex_ops, ex_dom. cbn. destruct (Nat.leb d 1); simpl; rewrite ?mem_cons, ?mem_nil; simpl; lia.
    + intros d v [E|[]]. injection E as <- <-. simpl. rewrite mem_cons. simpl. lia. }
  split; [vm_compute; reflexivity|]. split; [cbn [points f1_bad f1_empty]; tauto|].
  split; [vm_compute; reflexivity|]. split; [vm_compute; reflexivity|].
  exists (fun d => if Nat.leb d 1 then 80%Z else 0%Z). split; [|split].
  - intro d. unfold ex_ops, ex_dom. cbn. destruct (Nat.leb d 1); simpl; rewrite ?mem_cons, ?mem_nil; simpl; lia.
  - cbn [points f1_bad f1_empty]. intros [H|H]; [tauto|].
    specialize (H 0 (r 10 20) (or_introl eq_refl)). simpl in H. rewrite mem_cons, mem_nil in H. simpl in H. lia.
  - vm_compute. reflexivity.
Qed.

(** F2: equality of ConnectivityProperties objects is not set equality: adding a subset changes the
    object (the sub-objects' classes differ). *)
Definition conn (cube : list (dim * val)) : hexp val := HAddCube (HEmpty Conn) cube.
Theorem C10_connectivity_properties_equality_refuted :
  exists a b, good (val_valid ex_dom) ex_all a /\ good (val_valid ex_dom) ex_all b /\
    safe ex_ops val_mem a /\ safe ex_ops val_mem b /\
    cls_of (run ex_ops ex_all a) = Conn /\ cls_of (run ex_ops ex_all b) = Conn /\
    (forall pt, points val_mem a pt <-> points val_mem b pt) /\
    hc_eqb ex_ops (run ex_ops ex_all a) (run ex_ops ex_all b) = false.
Proof.
  exists (conn [(1, r 80 80)]), (HOr (conn [(1, r 80 80)]) (conn [(0, r 1 10); (1, r 80 80)])).
  assert (G1 : good_cube (val_valid ex_dom) ex_all [(1, r 80 80)]).
  { good_tac. }
  assert (G2 : good_cube (val_valid ex_dom) ex_all [(0, r 1 10); (1, r 80 80)]).
  { good_tac. }
  cbn [good safe conn]. repeat (split; [tauto|]). repeat (split; [vm_compute; reflexivity|]). split.
  - intro pt. cbn [points conn]. split; [tauto|]. intros [H|[[]|H]]; auto. right.
    intros d v [E|[]]. injection E as <- <-. apply (H 1 (r 80 80)). simpl; auto.
  - vm_compute. reflexivity.
Qed.

Print Assumptions C08_cube_set_algebra_exact.
Print Assumptions C08_subtraction_exact_when_first_dimension_active.
Print Assumptions C08_interval_instance_exact.
Print Assumptions C08_subtraction_from_empty_refuted.
Print Assumptions C09_containment_exact.
Print Assumptions C10_plain_equality_is_set_equality.
Print Assumptions C10_equality_sound.
Print Assumptions C10_truth_value_is_nonemptiness.
Print Assumptions C10_connectivity_properties_equality_refuted.
Print Assumptions C11_cubes_partition_the_set.
Print Assumptions C12_single_cube_exact.
Print Assumptions C12_add_cube_and_hole_exact.
Print Assumptions C13_first_item_is_a_member.
Print Assumptions C13_first_item_in_space.
