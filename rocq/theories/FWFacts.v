(** * Facts about the minimization of firewall rules, for abstract connection sets. *)
From Coq Require Import ZArith List Bool Arith Lia String.
From Verif Require Import IntervalModel IntervalFacts TextModel PortProtoModel PeerModel PeerFacts PeerSetFacts PolicyModel PolicyLaws
                          PolicyFacts LayerFacts QueryModel QueryFacts YamlModel ClusterModel FWModel.
Import ListNotations.
Local Open Scope nat_scope.

(** ** Sets and dictionaries *)
Lemma ns_eqb_eq : forall a b, ns_eqb a b = true <-> a = b.
Proof.
  intros [a|] [b|]; cbn [ns_eqb]; try (split; congruence). rewrite String.eqb_eq. split; congruence.
Qed.
Lemma nmem_In : forall n l, nmem n l = true <-> In n l.
Proof.
  intros n l. unfold nmem. rewrite existsb_exists. split.
  - intros (m & Hm & E). apply ns_eqb_eq in E. congruence.
  - intros H. exists n. split; auto. apply ns_eqb_eq; auto.
Qed.
Lemma nadd_In : forall n m l, In m (nadd n l) <-> m = n \/ In m l.
Proof.
  intros. unfold nadd. destruct (nmem n l) eqn:E.
  - apply nmem_In in E. split; [auto|]. intros [->|H]; auto.
  - rewrite in_app_iff. simpl. split; [intros [?|[?|[]]]; auto|intros [?|?]; auto].
Qed.
Lemma nset_In : forall l n, In n (nset l) <-> In n l.
Proof.
  intros l n. unfold nset. assert (G : forall l r, In n (fold_left (fun r n => nadd n r) l r) <-> In n r \/ In n l).
  { clear l. induction l as [|a l IH]; intros r; cbn [fold_left]; [simpl; tauto|]. rewrite IH, nadd_In. simpl. intuition congruence. }
  rewrite G. simpl. tauto.
Qed.
Lemma same_ns_spec : forall l m, same_ns l m = true -> forall n, In n l <-> In n m.
Proof.
  intros l m E n. apply andb_true_iff in E as [E1 E2]. rewrite forallb_forall in E1, E2. split; intros H.
  - apply nmem_In. apply E1; auto.
  - apply nmem_In. apply E2; auto.
Qed.
Lemma subset_of_spec : forall s t, subset_of s t = true <-> forall p, In p s -> In p t.
Proof. intros s t. unfold subset_of. rewrite forallb_forall. split; intros H p Hp; apply pmem_In; auto. Qed.
Lemma same_peers_spec : forall s t, same_peers s t = true -> forall p, In p s <-> In p t.
Proof. intros s t E p. apply andb_true_iff in E as [E1 E2]. rewrite subset_of_spec in E1, E2. split; auto. Qed.
Lemma common_In : forall s t p, In p (common s t) <-> In p s /\ In p t.
Proof. intros. unfold common. rewrite filter_In, pmem_In. tauto. Qed.
Lemma minus_In : forall s t p, In p (minus s t) <-> In p s /\ ~ In p t.
Proof.
  intros. unfold minus. rewrite filter_In, negb_true_iff. split; intros [H1 H2]; (split; [exact H1|]).
  - intros H. apply pmem_In in H. congruence.
  - destruct (pmem p t) eqn:E; auto. apply pmem_In in E. tauto.
Qed.
Lemma pt_in_same : forall s t, (forall p, In p s <-> In p t) -> forall x, pt_in x s <-> pt_in x t.
Proof. intros s t H [k n|y]; cbn [pt_in]; [apply H|]. split; intros (l & Hl & M); exists l; (split; [apply H|]); auto. Qed.
Lemma sadd_In : forall v w l, In w (sadd v l) <-> w = v \/ In w l.
Proof.
  intros. unfold sadd. destruct (smem v l) eqn:E.
  - unfold smem in E. apply existsb_exists in E as (u & Hu & E). apply String.eqb_eq in E. subst u. split; [auto|]. intros [->|H]; auto.
  - rewrite in_app_iff. simpl. split; [intros [?|[?|[]]]; auto|intros [?|?]; auto].
Qed.

Section Update.
Context {K V : Type} (eqb : K -> K -> bool) (e0 : V) (f : V -> V).
Lemma update_cases : forall k d e, In e (update eqb k e0 f d) ->
  In e d \/ (exists v, eqb k (fst e) = true /\ In (fst e, v) d /\ snd e = f v) \/ e = (k, f e0).
Proof using.
  intros k. induction d as [|[k' v] d IH]; intros e H; cbn [update] in H.
  - destruct H as [<-|[]]. auto.
  - destruct (eqb k k') eqn:E.
    + destruct H as [<-|H]; [|left; right; exact H]. right; left. exists v. cbn [fst snd]. split; auto. split; auto. left; auto.
    + destruct H as [<-|H]; [left; left; auto|]. destruct (IH e H) as [I|[(w & I1 & I2 & I3)|I]]; [left; right; auto|right; left|auto].
      exists w. split; auto. split; auto. right; auto.
Qed.
Lemma update_has : forall k d, exists k' v, In (k', f v) (update eqb k e0 f d) /\
  ((k' = k /\ v = e0) \/ (eqb k k' = true /\ In (k', v) d)).
Proof using.
  intros k. induction d as [|[k' v] d IH]; cbn [update].
  - exists k, e0. split; [left; auto|auto].
  - destruct (eqb k k') eqn:E.
    + exists k', v. split; [left; auto|]. right. split; auto. left; auto.
    + destruct IH as (k2 & v2 & H1 & H2). exists k2, v2. split; [right; auto|]. destruct H2 as [H2|[H2 H3]]; auto. right. split; auto. right; auto.
Qed.
Lemma update_keeps : forall k d k' v, In (k', v) d ->
  In (k', v) (update eqb k e0 f d) \/ (eqb k k' = true /\ In (k', f v) (update eqb k e0 f d)).
Proof using.
  intros k. induction d as [|[k1 v1] d IH]; intros k' v H; [destruct H|]. cbn [update]. destruct (eqb k k1) eqn:E.
  - destruct H as [H|H]; [injection H as -> ->; right; split; auto; left; auto|left; right; auto].
  - destruct H as [H|H]; [left; left; auto|]. destruct (IH k' v H) as [I|[I1 I2]]; [left; right; auto|right; split; auto; right; auto].
Qed.
End Update.

(** ** Elements *)
Section Elems.
Context (cl : cluster) (ci : cinfo).
Notation ns_pods := (ns_pods cl ci).
Notation elem_peers := (elem_peers cl ci).
Lemma ns_pods_In : forall n p, In p (ns_pods n) <-> In p (ci_peers ci) /\ is_block p = false /\ cl_ns cl p = n.
Proof using.
  intros n p. unfold FWModel.ns_pods. rewrite filter_In, andb_true_iff, negb_true_iff, ns_eqb_eq. tauto.
Qed.
Lemma union_ns_In : forall l r p, In p (fold_left (fun r n => ps_union r (ns_pods n)) l r) <-> In p r \/ exists n, In n l /\ In p (ns_pods n).
Proof using.
  induction l as [|a l IH]; intros r p; cbn [fold_left].
  - split; [auto|]. intros [H|(n & [] & _)]; auto.
  - rewrite IH, ps_union_In. split.
    + intros [[H|H]|(n & H1 & H2)]; [auto|right; exists a; split; [left|]; auto|right; exists n; split; [right|]; auto].
    + intros [H|(n & [<-|H1] & H2)]; [auto|auto|right; exists n; auto].
Qed.
Lemma labels_In : forall k vs n r p, In p (fold_left (fun r v => ps_union r (common (pods_of_label ci k v) (ns_pods n))) vs r) <->
  In p r \/ exists v, In v vs /\ In p (pods_of_label ci k v) /\ In p (ns_pods n).
Proof using.
  intros k. induction vs as [|a l IH]; intros n r p; cbn [fold_left].
  - split; [auto|]. intros [H|(v & [] & _)]; auto.
  - rewrite IH, ps_union_In, common_In. split.
    + intros [[H|H]|(v & H1 & H2)]; [auto|right; exists a; split; [left|]; auto|right; exists v; split; [right|]; auto].
    + intros [H|(v & [<-|H1] & H2)]; [auto|auto|right; exists v; auto].
Qed.
(** Grouping by labels: the chosen groups are inside the given pods. *)
Lemma covered_values_spec : forall pods n k,
  (forall p, In p (snd (covered_values cl ci pods n k)) -> In p pods) /\
  (forall p, In p (snd (covered_values cl ci pods n k)) <-> In p (elem_peers (ELabels k (fst (covered_values cl ci pods n k)) n))).
Proof using.
  intros pods n k. unfold covered_values.
  set (step := fun (r : list string * peerset) v => _).
  assert (G : forall vs r, (forall p, In p (snd r) -> In p pods) -> (forall p, In p (snd r) <-> exists v, In v (fst r) /\ In p (pods_of_label ci k v) /\ In p (ns_pods n)) ->
    (forall p, In p (snd (fold_left step vs r)) -> In p pods) /\
    (forall p, In p (snd (fold_left step vs r)) <-> exists v, In v (fst (fold_left step vs r)) /\ In p (pods_of_label ci k v) /\ In p (ns_pods n))).
  { induction vs as [|v vs IH]; intros r H1 H2; cbn [fold_left]; [auto|]. apply IH; clear IH; unfold step; destruct (_ && _ && _) eqn:E; auto.
    - intros p Hp. cbn [snd] in Hp. apply ps_union_In in Hp as [Hp|Hp]; auto. apply common_In in Hp. tauto.
    - apply andb_true_iff in E as [E _]. apply andb_true_iff in E as [_ E]. pose proof (same_peers_spec _ _ E) as S. clear E.
      intros p. cbn [snd fst]. rewrite ps_union_In, <- (S p), common_In, H2. split.
      + intros [(w & W1 & W2)|W]; [exists w; split; [apply sadd_In; auto|auto]|exists v; split; [apply sadd_In; auto|auto]].
      + intros (w & W1 & W2). apply sadd_In in W1 as [->|W1]; [auto|left; exists w; auto]. }
  destruct (G (values_in ci k n) ([], [])) as [G1 G2].
  { intros p []. }
  { intros p. cbn [fst snd]. split; [intros []|intros (v & [] & _)]. }
  split; [exact G1|]. intros p. rewrite G2. cbn [FWModel.elem_peers]. rewrite labels_In. split; [intros H; right; exact H|intros [[]|H]; exact H].
Qed.
Lemma insert_option_In : forall o l x, In x (insert_option o l) <-> x = o \/ In x l.
Proof using.
  intros o. induction l as [|a l IH]; intros x; cbn [insert_option]; [simpl; intuition congruence|].
  destruct (_ <? _); cbn [In]; [rewrite IH|]; intuition congruence.
Qed.
Lemma sort_options_In : forall l x, In x (sort_options l) <-> In x l.
Proof using.
  induction l as [|a l IH]; intros x; cbn [sort_options fold_right]; [tauto|]. fold (sort_options l). rewrite insert_option_In, IH. simpl. intuition congruence.
Qed.
Lemma choose_spec : forall n pods opts remaining, (forall p, In p remaining -> In p pods) ->
  (forall k vs g, In (k, (vs, g)) opts -> (forall p, In p g -> In p pods) /\ forall p, In p g <-> In p (elem_peers (ELabels k vs n))) ->
  let r := choose n pods opts remaining in
  (forall p, In p remaining -> In p (snd r) \/ exists e, In e (fst r) /\ In p (elem_peers e)) /\
  (forall p, In p (snd r) -> In p remaining) /\ (forall e p, In e (fst r) -> In p (elem_peers e) -> In p pods).
Proof using.
  intros n pods. induction opts as [|[k [vs g]] opts IH]; intros rem Hr Ho; cbn [choose]; [cbn; split; [auto|split; [auto|intros e p []]]|].
  destruct (Ho k vs g (or_introl eq_refl)) as [Hg He].
  assert (Ho' : forall k vs g, In (k, (vs, g)) opts -> (forall p, In p g -> In p pods) /\ forall p, In p g <-> In p (elem_peers (ELabels k vs n))) by (intros; apply Ho; right; auto).
  set (taken := subset_of (common g pods) rem). set (rem' := if taken then minus rem g else rem). set (here := if taken then [ELabels k vs n] else []).
  assert (R1 : forall p, In p rem -> In p rem' \/ exists e, In e here /\ In p (elem_peers e)).
  { intros p Hp. unfold rem', here. destruct taken; auto. destruct (pmem p g) eqn:Hn; [apply pmem_In in Hn as Hin|].
    - right. exists (ELabels k vs n). split; [left; auto|apply He; auto].
    - left. apply minus_In. split; auto. intros X. apply pmem_In in X. congruence. }
  assert (R2 : forall p, In p rem' -> In p rem) by (intros p; unfold rem'; destruct taken; auto; intros H; apply minus_In in H; tauto).
  assert (R3 : forall e p, In e here -> In p (elem_peers e) -> In p pods).
  { intros e p. unfold here. destruct taken; [|intros []]. intros [<-|[]] H. apply Hg. apply He. exact H. }
  clearbody rem' here taken.
  assert (D : rem' = [] \/ rem' <> []) by (destruct rem'; [left; auto|right; discriminate]). destruct D as [->|D].
  - cbn [fst snd]. split; [|split; [intros p []|exact R3]]. intros p Hp. destruct (R1 p Hp) as [[]|H]; auto.
  - replace (match rem' with [] => (here, []) | _ :: _ => _ end) with (here ++ fst (choose n pods opts rem'), snd (choose n pods opts rem')) by (destruct rem'; [congruence|reflexivity]).
    destruct (IH rem' (fun p H => Hr p (R2 p H)) Ho') as (I1 & I2 & I3). cbn [fst snd]. split; [|split].
    + intros p Hp. destruct (R1 p Hp) as [H|(e & H1 & H2)]; [|right; exists e; split; [apply in_app_iff; auto|auto]].
      destruct (I1 p H) as [I|(e & E1 & E2)]; auto. right. exists e. split; [apply in_app_iff; auto|auto].
    + intros p Hp. auto.
    + intros e p H. apply in_app_iff in H as [H|H]; eauto.
Qed.
Lemma group_pods_spec : forall single pods n p, In p pods <-> exists e, In e (group_pods cl ci single pods n) /\ In p (elem_peers e).
Proof using.
  intros single pods n p. unfold group_pods.
  destruct (choose_spec n pods (sort_options (label_options cl ci single pods n)) pods (fun p H => H)) as (I1 & I2 & I3).
  { intros k vs g H. apply (proj1 (sort_options_In _ _)) in H. unfold label_options in H. apply in_flat_map in H as (k' & Hk & H).
    destruct (_ && _) in H; [|destruct H]. destruct H as [H|[]]. injection H as -> E. destruct (covered_values_spec pods n k) as [C1 C2]. rewrite E in C1, C2. auto. }
  set (r := choose n pods _ pods) in *. split.
  - intros Hp. destruct (I1 p Hp) as [H|(e & H1 & H2)]; [|exists e; split; [apply in_app_iff; auto|auto]].
    destruct (snd r) as [|q rest] eqn:E; [destruct H|]. exists (EPeers (q :: rest)). split; [apply in_app_iff; right; left; auto|exact H].
  - intros (e & H1 & H2). apply in_app_iff in H1 as [H1|H1]; [eapply I3; eauto|]. destruct (snd r) as [|q rest] eqn:E; [destruct H1|].
    destruct H1 as [<-|[]]. cbn [FWModel.elem_peers] in H2. auto.
Qed.
Lemma filter_shorter : forall {X} (f : X -> bool) l x, In x l -> f x = false -> List.length (filter f l) < List.length l.
Proof using.
  intros X f. induction l as [|a l IH]; intros x Hx E; [destruct Hx|]. destruct Hx as [->|H]; cbn [filter List.length].
  - rewrite E. pose proof (filter_len_le f l). lia.
  - specialize (IH x H E). destruct (f a); cbn [List.length]; lia.
Qed.
Definition known (p : peer) : Prop := In p (ci_peers ci).
Lemma group_loop_spec : forall single fuel pods, List.length pods <= fuel -> (forall p, In p pods -> is_block p = false /\ known p) ->
  exists r, group_loop cl ci single fuel pods = Some r /\ forall p, In p pods <-> exists e, In e r /\ In p (elem_peers e).
Proof using.
  intros single. induction fuel as [|fuel IH]; intros pods Hl Hk.
  - destruct pods as [|p pods]; [|cbn in Hl; lia]. exists []. split; [reflexivity|]. intros p. split; [intros []|intros (e & [] & _)].
  - destruct pods as [|p0 pods]; [exists []; split; [reflexivity|]; intros p; split; [intros []|intros (e & [] & _)]|].
    cbn [group_loop]. set (here := common (p0 :: pods) (ns_pods (cl_ns cl p0))).
    assert (H0 : In p0 here). { apply common_In. destruct (Hk p0 (or_introl eq_refl)) as [K1 K2]. split; [left; auto|]. apply ns_pods_In. auto. }
    assert (Hs : List.length (minus (p0 :: pods) here) < List.length (p0 :: pods)).
    { unfold minus. apply (filter_shorter _ _ p0); [left; auto|]. apply negb_false_iff. apply pmem_In. exact H0. }
    destruct (IH (minus (p0 :: pods) here)) as (r & Er & Mr); [lia| |].
    { intros p Hp. apply minus_In in Hp as [Hp _]. auto. }
    rewrite Er. cbn [bind]. eexists. split; [reflexivity|]. intros p. split.
    + intros Hp. destruct (pmem p here) eqn:Eh.
      * apply pmem_In in Eh. apply (group_pods_spec single here (cl_ns cl p0)) in Eh as (e & E1 & E2). exists e. split; [apply in_app_iff; auto|auto].
      * assert (Hm : In p (minus (p0 :: pods) here)) by (apply minus_In; split; auto; intros X; apply pmem_In in X; congruence).
        apply Mr in Hm as (e & E1 & E2). exists e. split; [apply in_app_iff; auto|auto].
    + intros (e & E1 & E2). apply in_app_iff in E1 as [E1|E1].
      * assert (X : In p here) by (apply (group_pods_spec single here (cl_ns cl p0)); exists e; auto). apply common_In in X. tauto.
      * assert (X : In p (minus (p0 :: pods) here)) by (apply Mr; exists e; auto). apply minus_In in X. tauto.
Qed.
End Elems.

(** ** Laws of the further operations *)
Section FW.
Context (cl : cluster) (ci : cinfo).
Context {C Pt : Type} (A : cops C) (Q : qops C) (F : fops (C:=C)) (src dst : Pt -> point) (tcp : Pt -> bool) (space : Pt -> Prop)
        (cmem : Pt -> C -> Prop) (cok : C -> Prop) (csafe : C -> C -> Prop) (vis : list peer) (put : Pt -> Pt -> Pt) (nice : Pt -> Prop).
(** Membership depends on the peers only. *)
Definition ponly (x : C) : Prop := forall p q, space p -> space q -> src p = src q -> dst p = dst q -> cmem p x -> cmem q x.
Definition some_of (x : C) : Prop := exists pt, space pt /\ cmem pt x.
Definition not_all (x : C) : Prop := exists pt, space pt /\ ~ cmem pt x.
Definition in_cube (k : peerset * peerset) (pt : Pt) : Prop := pt_in (src pt) (fst k) /\ pt_in (dst pt) (snd k).
Definition cubes_of (x : C) (l : list (peerset * peerset)) : Prop :=
  (forall k, In k l -> pok vis (fst k) /\ pok vis (snd k) /\ (exists y, pt_in y (fst k)) /\ (exists y, pt_in y (snd k))) /\
  (forall pt, space pt -> cmem pt x -> exists k, In k l /\ in_cube k pt) /\
  (ponly x -> forall k pt, In k l -> space pt -> in_cube k pt -> cmem pt x).
Definition side (b : bool) (pt : Pt) : point := if b then src pt else dst pt.
Record flaws : Prop := FLaws {
  w_pod : exists k n, In (Named k n) vis;
  w_cubes : forall x, cok x -> not_all x -> exists l, f_cubes F x = Some l /\ cubes_of x l;
  w_switched : forall x, cok x -> not_all x -> exists l, f_switched F x = Some l /\ cubes_of x l;
  w_minimized : forall x, cok x -> not_all x -> exists l, f_minimized F x = Some l /\ cubes_of x l;
  w_side : forall b x, cok x -> some_of x -> pok vis (f_side F b x) /\
    forall y, pt_in y (f_side F b x) <-> exists pt, space pt /\ cmem pt x /\ side b pt = y;
  w_peers : forall x y, cok x -> some_of x -> pt_in y (q_peers Q x) -> exists pt b, space pt /\ cmem pt x /\ side b pt = y;
  w_split_ok : forall r h p c, cok h -> In (p, c) (f_split F r h) -> cok p /\ cok c /\ ponly p /\ some_of p /\
    (forall pt, space pt -> cmem pt p -> exists q, space q /\ cmem q h /\ src q = src pt /\ dst q = dst pt);
  w_split_sound : forall r h p c pt, cok h -> In (p, c) (f_split F r h) -> space pt -> opt (eq (tcp pt)) r -> cmem pt p -> cmem pt c -> cmem pt h;
  w_split_complete : forall r h pt, cok h -> space pt -> nice pt -> cmem pt h -> exists p c, In (p, c) (f_split F r h) /\ cmem pt p /\ cmem pt c
}.
Context (L : claws A src dst tcp space cmem cok csafe vis) (QL : qlaws A Q src dst tcp space cmem cok csafe vis put) (W : flaws).
Local Notation law f := (f _ _ _ _ _ _ _ _ _ L).
Local Notation qlaw f := (f _ _ _ _ _ _ _ _ _ _ _ QL).
Notation ns_pods := (ns_pods cl ci).
Notation elem_peers := (elem_peers cl ci).
Notation rect := (rect A).
Notation rect_at := (rect_at A).

(** ** Safe objects *)
Definition safe (x : C) : Prop := forall y, cok y -> csafe x y.
Lemma or_safe : forall x y, cok x -> cok y -> safe x -> safe (c_or A x y).
Proof using L.
  intros x y Kx Ky Sx z Kz. destruct (c_bool A y) eqn:B.
  - apply (law l_bool y Ky) in B as (pt & Sp & M). apply (law l_safe_nonempty (c_or A x y) z pt); auto; [apply (law l_or_ok); auto|]. apply (law l_or x y pt); auto.
  - rewrite (law l_or_empty_r x y Kx Ky); [auto|]. intros pt Sp M. assert (X : c_bool A y = true) by (apply (law l_bool y Ky); exists pt; auto). congruence.
Qed.
Lemma sub_safe : forall x r, cok x -> cok r -> safe x -> (forall p, space p -> cmem p r -> exists q, space q /\ ~ cmem (put p q) r) ->
  cok (c_sub A x r) /\ safe (c_sub A x r) /\ forall pt, space pt -> (cmem pt (c_sub A x r) <-> cmem pt x /\ ~ cmem pt r).
Proof using L QL.
  intros x r Kx Kr Sx H. destruct (c_bool A r) eqn:B.
  - apply (law l_bool r Kr) in B as (p & Sp & M). destruct (H p Sp M) as (q & Sq & Nq). split; [apply (law l_sub_ok); auto|]. split.
    + intros y Ky. apply (qlaw q_safe_sub x r y p q); auto.
    + intros pt Spt. apply (law l_sub); auto.
  - assert (N : forall pt, space pt -> ~ cmem pt r) by (intros pt Spt M; assert (X : c_bool A r = true) by (apply (law l_bool r Kr); exists pt; auto); congruence).
    rewrite (law l_sub_empty_r x r Kx Kr N). split; auto. split; auto. intros pt Spt. specialize (N pt Spt). tauto.
Qed.
Lemma pok_anywhere : forall s x, pok vis s -> pt_in x s -> anywhere vis x.
Proof using.
  intros s [k n|y] [P1 P2] H; cbn [pt_in] in H; [left; exact (P2 k n H)|]. destruct H as (l & Hl & Hy). right. destruct (P1 l Hl) as [_ V]. exact (V y Hy).
Qed.
Lemma rect_mem : forall s d pt, pok vis s -> pok vis d -> space pt -> (cmem pt (rect s d) <-> pt_in (src pt) s /\ pt_in (dst pt) d).
Proof using L. intros s d pt Ps Pd Sp. refine (iff_trans (law l_rect (Some s) (Some d) None pt Ps Pd Sp) _). cbn [opt]. tauto. Qed.
Lemma rect_ok : forall s d, pok vis s -> pok vis d -> cok (rect s d).
Proof using L. intros s d Ps Pd. apply (law l_rect_ok (Some s) (Some d) None); auto. Qed.
Lemma rect_ponly : forall s d, pok vis s -> pok vis d -> ponly (rect s d).
Proof using L. intros s d Ps Pd p q Sp Sq E1 E2 M. apply rect_mem in M; auto. apply rect_mem; auto. rewrite <- E1, <- E2. exact M. Qed.
Lemma or_ponly : forall x y, cok x -> cok y -> ponly x -> ponly y -> ponly (c_or A x y).
Proof using L.
  intros x y Kx Ky Px Py p q Sp Sq E1 E2 M. apply (law l_or x y q Kx Ky Sq). apply (law l_or x y p Kx Ky Sp) in M. destruct M as [M|M]; [left; apply (Px p q)|right; apply (Py p q)]; auto.
Qed.
Lemma and_ponly : forall x y, cok x -> cok y -> ponly x -> ponly y -> ponly (c_and A x y).
Proof using L.
  intros x y Kx Ky Px Py p q Sp Sq E1 E2 M. apply (law l_and x y q Kx Ky Sq). apply (law l_and x y p Kx Ky Sp) in M. destruct M as [M1 M2]. split; [apply (Px p q)|apply (Py p q)]; auto.
Qed.
Lemma sub_ponly : forall x y z, (forall pt, space pt -> (cmem pt z <-> cmem pt x /\ ~ cmem pt y)) -> ponly x -> ponly y -> ponly z.
Proof using.
  intros x y z H Px Py p q Sp Sq E1 E2 M. apply (H q Sq). apply (H p Sp) in M as [M1 M2]. split; [apply (Px p q); auto|]. intros M. apply M2. apply (Py q p); auto.
Qed.
Lemma rect_constrains : forall s d, pok vis s -> pok vis d -> (forall p, space p -> cmem p (rect s d) -> exists x, anywhere vis x /\ ~ pt_in x s) ->
  forall p, space p -> cmem p (rect s d) -> exists q, space q /\ ~ cmem (put p q) (rect s d).
Proof using L QL.
  intros s d Ps Pd H p Sp M. destruct (H p Sp M) as (x & Ax & Nx). destruct (qlaw q_ends p Sp) as [_ Ed].
  destruct (qlaw q_point x (dst p) true Ax Ed) as (q & Sq & Eq & _). exists q. split; auto. destruct (qlaw q_put p q Sp Sq) as (Su & E1 & E2 & _).
  intros X. apply rect_mem in X; auto. destruct X as [X _]. rewrite E1, Eq in X. auto.
Qed.

(** ** Rules for one connection set *)
Definition known_pt (x : point) : Prop := match x with PN k n => known ci (Named k n) | PA _ => True end.
Definition self_pt (pt : Pt) : Prop := exists k n, k < 2 /\ src pt = PN k n /\ dst pt = PN k n.
Context (Hpeers : forall p, In p (ci_peers ci) -> is_block p = false -> In p vis).
Lemma ns_pods_ok : forall n, pok vis (ns_pods n).
Proof using Hpeers.
  intros n. split.
  - intros l H. apply ns_pods_In in H as (_ & H & _). discriminate.
  - intros k m H. apply ns_pods_In in H as (H1 & H2 & _). auto.
Qed.
Lemma ns_pods_addr : forall n y, ~ pt_in (PA y) (ns_pods n).
Proof using. intros n y (l & H & _). apply ns_pods_In in H as (_ & H & _). discriminate. Qed.
Definition within (s : peerset) : Prop := pok vis s /\ forall x, pt_in x s -> known_pt x.

Lemma elements_spec : forall single s, within s ->
  exists r, elements cl ci single (BPeers s) = Some r /\ forall x, pt_in x s <-> exists e, In e r /\ pt_in x (elem_peers e).
Proof using.
  intros single s [[P1 P2] Kn]. cbn [elements]. set (pods := without_ip_block_or_dns s).
  assert (Pp : forall p, In p pods <-> In p s /\ is_block p = false /\ is_dns p = false).
  { intros p. unfold pods, without_ip_block_or_dns. rewrite filter_In, andb_true_iff, !negb_true_iff. tauto. }
  assert (Okp : ps_ok pods) by (intros l H; apply Pp in H as [H _]; apply P1; auto).
  destruct (ps_diff_ok s pods P1 Okp) as (rest & Er & Ok & Mr). rewrite Er. cbn [bind].
  destruct (group_loop_spec cl ci single (List.length pods) pods (le_n _)) as (r & Eg & Mg).
  { intros p H. apply Pp in H as (H1 & H2 & _). split; auto. destruct p as [k n|l]; [|discriminate]. exact (Kn (PN k n) H1). }
  rewrite Eg. cbn [bind]. eexists. split; [reflexivity|]. intros x.
  assert (Mp : pt_in x pods <-> exists e, In e r /\ pt_in x (elem_peers e)).
  { assert (NB : forall e l, In e r -> ~ In (Block l) (elem_peers e)).
    { intros e l He Hl. assert (X : In (Block l) pods) by (apply Mg; exists e; auto). apply Pp in X as (_ & X & _). discriminate. }
    destruct x as [k n|y]; cbn [pt_in]; [apply Mg|]. split.
    - intros (l & H & _). apply Pp in H as (_ & H & _). discriminate.
    - intros (e & He & l & Hl & _). destruct (NB e l He Hl). }
  assert (Mx : pt_in x rest <-> exists e, In e (map (fun p => match p with Block l => EIp l | _ => EDns p end) rest) /\ pt_in x (elem_peers e)).
  { split.
    - intros H. destruct x as [k n|y]; cbn [pt_in] in H.
      + exists (EDns (Named k n)). split; [apply in_map_iff; exists (Named k n); auto|]. left; auto.
      + destruct H as (l & H1 & H2). exists (EIp l). split; [apply in_map_iff; exists (Block l); auto|]. exists l. split; [left|]; auto.
    - intros (e & He & Hx). apply in_map_iff in He as (p & <- & Hp). destruct p as [k n|l]; cbn [FWModel.elem_peers] in Hx; destruct x as [k' n'|y]; cbn [pt_in In] in Hx |- *.
      + destruct Hx as [Hx|[]]. injection Hx as <- <-. exact Hp.
      + destruct Hx as (l & [Hx|[]] & _). discriminate.
      + destruct Hx as [Hx|[]]. discriminate.
      + destruct Hx as (m & [Hx|[]] & M). injection Hx as <-. exists l. auto. }
  assert (D : pt_in x s <-> pt_in x rest \/ pt_in x pods).
  { rewrite (Mr x). split; [|intros [[H _]|H]; auto].
    - intros H. destruct x as [k n|y].
      + cbn [pt_in] in *. destruct (pmem (Named k n) pods) eqn:E; [right; apply pmem_In; auto|left]. split; auto. intros X. apply pmem_In in X. congruence.
      + left. split; auto. intros (l & X & _). apply Pp in X as (_ & X & _). discriminate.
    - destruct x as [k n|y]; cbn [pt_in] in *; [apply Pp in H; tauto|]. destruct H as (l & X & _). apply Pp in X as (_ & X & _). discriminate. }
  rewrite D, Mp, Mx. split.
  - intros [(e & H1 & H2)|(e & H1 & H2)]; exists e; (split; [apply in_app_iff|]); auto.
  - intros (e & H1 & H2). apply in_app_iff in H1 as [H1|H1]; [right|left]; exists e; auto.
Qed.
(** The peers of a base element. *)
Definition base_peers (b : base) : peerset := match b with BPeers s => s | BNs l => fold_left (fun r n => ps_union r (ns_pods n)) l [] end.
Definition base_ok (b : base) : Prop := match b with BPeers s => within s | BNs _ => True end.
Lemma base_spec : forall single b, base_ok b ->
  exists r, elements cl ci single b = Some r /\ forall x, pt_in x (base_peers b) <-> exists e, In e r /\ pt_in x (elem_peers e).
Proof using.
  intros single [s|l] H; [apply elements_spec; auto|]. exists [ENs l]. split; [reflexivity|]. intros x. cbn [base_peers]. split.
  - intros Hx. exists (ENs l). split; [left; auto|exact Hx].
  - intros (e & [<-|[]] & Hx). exact Hx.
Qed.
Definition in_pair (b : base * base) (pt : Pt) : Prop := pt_in (src pt) (base_peers (fst b)) /\ pt_in (dst pt) (base_peers (snd b)).
Definition in_rule (r : elem * elem) (pt : Pt) : Prop := pt_in (src pt) (elem_peers (fst r)) /\ pt_in (dst pt) (elem_peers (snd r)).
Lemma pairs_spec : forall single l, (forall b, In b l -> base_ok (fst b) /\ base_ok (snd b)) ->
  exists r, rules_of_pairs cl ci single l = Some r /\ forall pt, (exists b, In b l /\ in_pair b pt) <-> exists e, In e r /\ in_rule e pt.
Proof using.
  intros single l H. unfold rules_of_pairs.
  assert (G : exists r, mapM (rules_of_pair cl ci single) l = Some r /\ forall pt, (exists b, In b l /\ in_pair b pt) <-> exists e, In e (List.concat r) /\ in_rule e pt).
  { induction l as [|[b1 b2] l IH].
    - exists []. split; [reflexivity|]. intros pt. split; [intros (b & [] & _)|intros (e & [] & _)].
    - destruct (H (b1, b2) (or_introl eq_refl)) as [H1 H2]. cbn [fst snd] in H1, H2.
      destruct (base_spec single b1 H1) as (r1 & E1 & M1). destruct (base_spec single b2 H2) as (r2 & E2 & M2).
      destruct IH as (r & Er & Mr); [intros b Hb; apply H; right; auto|].
      cbn [mapM]. unfold rules_of_pair at 1. cbn [fst snd]. rewrite E1. cbn [bind]. rewrite E2. cbn [bind]. rewrite Er. cbn [bind].
      eexists. split; [reflexivity|]. intros pt. cbn [List.concat]. split.
      + intros (b & [<-|Hb] & P).
        * destruct P as [P1 P2]. cbn [fst snd] in P1, P2. apply M1 in P1 as (e1 & He1 & X1). apply M2 in P2 as (e2 & He2 & X2).
          exists (e1, e2). split; [|split; auto]. apply in_app_iff. left. apply in_flat_map. exists e1. split; auto. apply in_map_iff. exists e2. auto.
        * destruct (proj1 (Mr pt)) as (e & He & X); [exists b; auto|]. exists e. split; [apply in_app_iff; auto|auto].
      + intros (e & He & X). apply in_app_iff in He as [He|He].
        * apply in_flat_map in He as (e1 & He1 & He). apply in_map_iff in He as (e2 & <- & He2). destruct X as [X1 X2]. cbn [fst snd] in X1, X2.
          exists (b1, b2). split; [left; auto|]. split; [apply M1; exists e1|apply M2; exists e2]; auto.
        * destruct (proj2 (Mr pt)) as (b & Hb & P); [exists e; auto|]. exists b. split; [right|]; auto. }
  destruct G as (r & Er & Mr). rewrite Er. cbn [bind]. exists (List.concat r). auto.
Qed.

(** *** Connections that may occur *)
Definition good (pt : Pt) : Prop := possible (src pt) (dst pt) /\ known_pt (src pt) /\ known_pt (dst pt).
Definition good_obj (x : C) : Prop := forall pt, space pt -> cmem pt x -> good pt.
Lemma pa0 : anywhere vis (PA 0).
Proof using. right. apply v4_addr. Qed.
Lemma good_not_all : forall x, good_obj x -> not_all x.
Proof using QL.
  intros x G. destruct (qlaw q_point (PA 0) (PA 0) true pa0 pa0) as (pt & Sp & E1 & E2 & _). exists pt. split; auto. intros M.
  destruct (G pt Sp M) as ((P & _) & _). apply P. rewrite E1, E2. split; [apply v4_addr|left; apply v4_addr].
Qed.
(** Points with given ends. *)
Definition at_ends (b : bool) (pt : Pt) (x y : point) : Prop := side b pt = x /\ side (negb b) pt = y.
Lemma point_at : forall b x y, anywhere vis x -> anywhere vis y -> exists pt, space pt /\ at_ends b pt x y.
Proof using QL.
  intros [|] x y Hx Hy; [destruct (qlaw q_point x y true Hx Hy) as (pt & Sp & E1 & E2 & _)|destruct (qlaw q_point y x true Hy Hx) as (pt & Sp & E1 & E2 & _)];
    exists pt; unfold at_ends, side; cbn [negb]; auto.
Qed.
Lemma good_side : forall b pt, good pt -> known_pt (side b pt).
Proof using. intros [|] pt (_ & G1 & G2); exact G1 || exact G2. Qed.
(** [s] (the dimension [b]) times [t] is in [x]. *)
Definition covers (b : bool) (s t : peerset) (x : C) : Prop := forall pt, space pt -> pt_in (side b pt) s -> pt_in (side (negb b) pt) t -> cmem pt x.
Lemma covers_within : forall b s t x, pok vis s -> pok vis t -> covers b s t x -> good_obj x -> (exists y, pt_in y t) -> within s.
Proof using QL.
  intros b s t x Ps Pt' Cv G (y & Hy). split; auto. intros z Hz. destruct (point_at b z y) as (pt & Sp & E1 & E2); [apply (pok_anywhere s); auto|apply (pok_anywhere t); auto|].
  rewrite <- E1. apply good_side. apply G; auto. apply Cv; auto; [rewrite E1|rewrite E2]; auto.
Qed.
Lemma covers_within' : forall b s t x, pok vis s -> pok vis t -> covers b s t x -> good_obj x -> (exists y, pt_in y s) -> within t.
Proof using QL.
  intros b s t x Ps Pt' Cv G H. apply (covers_within (negb b) t s x); auto. intros pt Sp H1 H2. rewrite negb_involutive in H2. apply Cv; auto.
Qed.
Lemma rect_at_mem : forall b s t pt, pok vis s -> pok vis t -> space pt -> (cmem pt (rect_at b s t) <-> pt_in (side b pt) s /\ pt_in (side (negb b) pt) t).
Proof using L. intros [|] s t pt Ps Pt' Sp; unfold FWModel.rect_at; cbn [side negb]; refine (iff_trans (rect_mem _ _ pt _ _ Sp) _); auto; tauto. Qed.
Lemma rect_at_ok : forall b s t, pok vis s -> pok vis t -> cok (rect_at b s t).
Proof using L. intros [|] s t Ps Pt'; unfold FWModel.rect_at; apply rect_ok; auto. Qed.
Lemma rect_at_ponly : forall b s t, pok vis s -> pok vis t -> ponly (rect_at b s t).
Proof using L. intros [|] s t Ps Pt'; unfold FWModel.rect_at; apply rect_ponly; auto. Qed.
Lemma empty_ponly : ponly (c_empty A).
Proof using L. intros p q _ _ _ _ M. destruct (law l_empty p M). Qed.
Lemma empty_bool : forall x pt, cok x -> c_bool A x = false -> space pt -> ~ cmem pt x.
Proof using L. intros x pt Kx E Sp M. assert (X : c_bool A x = true) by (apply (law l_bool x Kx); exists pt; auto). congruence. Qed.
Lemma bool_some : forall x, cok x -> c_bool A x = true -> some_of x.
Proof using L. intros x Kx E. apply (law l_bool x Kx) in E. exact E. Qed.
Lemma bool_mem : forall x pt, cok x -> space pt -> cmem pt x -> c_bool A x = true.
Proof using L. intros x pt Kx Sp M. apply (law l_bool x Kx). exists pt; auto. Qed.

Section OneSet.
Context (single : bool) (pp cont : C) (Kp : cok pp) (Kc : cok cont) (Pp : ponly pp) (Pc : ponly cont) (Gp : good_obj pp) (Gc : good_obj cont) (Np : some_of pp).
Notation cov0 := (covered_props A Q pp cont).
Lemma covered_spec : cok cov0 /\ ponly cov0 /\ good_obj cov0 /\ (forall pt, space pt -> cmem pt pp -> cmem pt cov0) /\
  (forall pt, space pt -> cmem pt cov0 -> cmem pt pp \/ cmem pt cont \/ self_pt pt).
Proof using L QL W Kp Kc Pp Pc Gp Gc Np.
  unfold covered_props. set (c0 := c_or A pp cont).
  assert (I0 : cok c0 /\ ponly c0 /\ good_obj c0 /\ (forall pt, space pt -> cmem pt pp -> cmem pt c0) /\ (forall pt, space pt -> cmem pt c0 -> cmem pt pp \/ cmem pt cont \/ self_pt pt)).
  { assert (M : forall pt, space pt -> (cmem pt c0 <-> cmem pt pp \/ cmem pt cont)) by (intros pt Sp; apply (law l_or); auto).
    split; [apply (law l_or_ok); auto|]. split; [apply or_ponly; auto|]. split; [|split].
    - intros pt Sp X. apply (M pt Sp) in X as [X|X]; auto.
    - intros pt Sp X. apply (M pt Sp). auto.
    - intros pt Sp X. apply (M pt Sp) in X. tauto. }
  destruct (List.length (q_peers Q pp) <? 500); [|exact I0].
  assert (Hq : forall p, In p (q_peers Q pp) -> is_cluster_ep p = true -> exists k n, p = Named k n /\ k < 2 /\ In p vis /\ known ci p).
  { intros [k n|l] Hp E; [|discriminate]. cbn [is_cluster_ep] in E. apply Nat.ltb_lt in E. exists k, n. split; auto. split; auto. split.
    - destruct (qlaw q_peers_ok pp Kp) as [_ P2]. apply P2; auto.
    - destruct (w_peers W pp (PN k n) Kp Np Hp) as (pt & b & Sp & M & Eb). pose proof (good_side b pt (Gp pt Sp M)) as Kn. rewrite Eb in Kn. exact Kn. }
  revert Hq I0. generalize c0. induction (q_peers Q pp) as [|p l IH]; intros c Hq (I1 & I2 & I3 & I4 & I5); cbn [fold_left]; [auto|].
  apply IH; [intros q Hin; apply Hq; right; auto|]. destruct (is_cluster_ep p) eqn:E; [|auto].
  destruct (Hq p (or_introl eq_refl) E) as (k & n & -> & Hk & Hv & Hkn).
  assert (Po : pok vis [Named k n]).
  { split; [intros m [X|[]]; discriminate|]. intros k' n' [X|[]]. injection X as <- <-. exact Hv. }
  assert (M : forall pt, space pt -> (cmem pt (c_or A c (rect [Named k n] [Named k n])) <-> cmem pt c \/ (src pt = PN k n /\ dst pt = PN k n))).
  { intros pt Sp. refine (iff_trans (law l_or _ _ pt I1 (rect_ok _ _ Po Po) Sp) _). 
    assert (R : cmem pt (rect [Named k n] [Named k n]) <-> src pt = PN k n /\ dst pt = PN k n).
    { refine (iff_trans (rect_mem _ _ pt Po Po Sp) _).
      assert (U : forall x, pt_in x [Named k n] <-> x = PN k n).
      { intros [k' n'|y]; cbn [pt_in In]; [split; [intros [X|[]]; congruence|intros X; left; congruence]|split; [intros (m & [X|[]] & _); discriminate|discriminate]]. }
      rewrite !U. tauto. }
    tauto. }
  split; [apply (law l_or_ok); auto; apply rect_ok; auto|]. split; [apply or_ponly; auto; [apply rect_ok|apply rect_ponly]; auto|]. split; [|split].
  - intros pt Sp X. apply (M pt Sp) in X as [X|[X1 X2]]; [auto|]. unfold good. rewrite X1, X2. unfold possible, is_addr, named_dns, known_pt, kind_dns. split; [lia|auto].
  - intros pt Sp X. apply (M pt Sp). auto.
  - intros pt Sp X. apply (M pt Sp) in X as [X|[X1 X2]]; [auto|]. right; right. exists k, n. auto.
Qed.

(** *** Pairs of whole namespaces *)
Definition ns_prod (sd : ns * ns) (pt : Pt) : Prop := pt_in (src pt) (ns_pods (fst sd)) /\ pt_in (dst pt) (ns_pods (snd sd)).
Definition full_inv (st : C * C * list (ns * ns)) : Prop :=
  match st with (cov, rest, found) =>
    cok cov /\ ponly cov /\ (forall pt, space pt -> cmem pt cov -> cmem pt cov0) /\
    cok rest /\ safe rest /\ ponly rest /\ (forall pt, space pt -> cmem pt rest -> cmem pt pp) /\
    (forall sd pt, In sd found -> space pt -> ns_prod sd pt -> cmem pt cov0)
  end.
Lemma full_step_spec : forall st sd, full_inv st -> full_inv (full_step cl ci A pp st sd) /\
  (forall pt, space pt -> cmem pt (snd (fst st)) -> cmem pt (snd (fst (full_step cl ci A pp st sd)))) /\
  (forall x, In x (snd st) -> In x (snd (full_step cl ci A pp st sd))) /\
  (forall pt, space pt -> cmem pt pp -> ns_prod sd pt -> cmem pt (snd (fst (full_step cl ci A pp st sd))) \/ In sd (snd (full_step cl ci A pp st sd))).
Proof using L Hpeers Kp Pp.
  intros [[cov rest] found] sd (K1 & P1 & C1 & K2 & S2 & P2 & C2 & F2). unfold full_step.
  set (prod := rect (ns_pods (fst sd)) (ns_pods (snd sd))).
  assert (Kr : cok prod) by (apply rect_ok; apply ns_pods_ok).
  assert (Pr : ponly prod) by (apply rect_ponly; apply ns_pods_ok).
  assert (Mr : forall pt, space pt -> (cmem pt prod <-> ns_prod sd pt)) by (intros pt Sp; apply rect_mem; auto; apply ns_pods_ok).
  assert (Ka : cok (c_and A prod pp)) by (apply (law l_and_ok); auto).
  assert (Ma : forall pt, space pt -> (cmem pt (c_and A prod pp) <-> cmem pt prod /\ cmem pt pp)) by (intros pt Sp; apply (law l_and); auto).
  destruct (c_cont A prod cov) eqn:E.
  - assert (In_cov : forall pt, space pt -> cmem pt prod -> cmem pt cov) by (apply (proj1 (law l_cont prod cov Kr K1)); exact E).
    assert (S : csafe cov prod).
    { destruct (c_bool A prod) eqn:B.
      - apply (law l_bool prod Kr) in B as (q & Sq & Mq). apply (law l_safe_nonempty cov prod q); auto.
      - apply (law l_safe_right_empty cov prod); auto. intros pt Sp. apply empty_bool; auto. }
    assert (Ms : forall pt, space pt -> (cmem pt (c_sub A cov prod) <-> cmem pt cov /\ ~ cmem pt prod)) by (intros pt Sp; apply (law l_sub); auto).
    assert (Fd : forall x pt, In x (if c_bool A (c_and A prod pp) then found ++ [sd] else found) -> space pt -> ns_prod x pt -> cmem pt cov0).
    { intros x pt Hx Sp Hn. assert (X : In x found \/ x = sd) by (destruct (c_bool A (c_and A prod pp)); [apply in_app_iff in Hx as [Hx|[Hx|[]]]|]; auto).
      destruct X as [X| ->]; [apply (F2 x); auto|]. apply C1; auto. apply In_cov; auto. apply (Mr pt Sp); auto. }
    cbn [fst snd]. split; [|split; [|split]].
    + cbn [full_inv]. split; [apply (law l_sub_ok); auto|]. split; [apply (sub_ponly cov prod); auto|]. split; [intros pt Sp X; apply C1; auto; apply (Ms pt Sp) in X; tauto|]. 
      exact (conj K2 (conj S2 (conj P2 (conj C2 Fd)))).
    + auto.
    + intros x Hx. destruct (c_bool A (c_and A prod pp)); [apply in_app_iff|]; auto.
    + intros pt Sp M Hn. right. rewrite (bool_mem _ pt Ka Sp); [apply in_app_iff; right; left; auto|]. apply (Ma pt Sp). split; auto. apply (Mr pt Sp); auto.
  - assert (Mo : forall pt, space pt -> (cmem pt (c_or A rest (c_and A prod pp)) <-> cmem pt rest \/ cmem pt (c_and A prod pp))) by (intros pt Sp; apply (law l_or); auto).
    cbn [fst snd]. split; [|split; [|split]].
    + cbn [full_inv]. split; auto. split; auto. split; auto. split; [apply (law l_or_ok); auto|]. split; [apply or_safe; auto|].
      split; [apply or_ponly; auto; apply and_ponly; auto|]. split; [|auto].
      intros pt Sp X. apply (Mo pt Sp) in X as [X|X]; [auto|]. apply (Ma pt Sp) in X. tauto.
    + intros pt Sp X. apply (Mo pt Sp). auto.
    + auto.
    + intros pt Sp M Hn. left. apply (Mo pt Sp). right. apply (Ma pt Sp). split; auto. apply (Mr pt Sp); auto.
Qed.
Lemma full_fold_spec : forall l st, full_inv st -> full_inv (fold_left (full_step cl ci A pp) l st) /\
  (forall pt, space pt -> cmem pt (snd (fst st)) -> cmem pt (snd (fst (fold_left (full_step cl ci A pp) l st)))) /\
  (forall x, In x (snd st) -> In x (snd (fold_left (full_step cl ci A pp) l st))) /\
  (forall sd pt, In sd l -> space pt -> cmem pt pp -> ns_prod sd pt ->
     cmem pt (snd (fst (fold_left (full_step cl ci A pp) l st))) \/ In sd (snd (fold_left (full_step cl ci A pp) l st))).
Proof using L Hpeers Kp Pp.
  induction l as [|a l IH]; intros st I; cbn [fold_left]; [split; auto; split; auto; split; auto; intros sd pt []|].
  destruct (full_step_spec st a I) as (I1 & M1 & F1 & T1). destruct (IH _ I1) as (I2 & M2 & F2 & T2). split; auto. split; [auto|]. split; [auto|].
  intros sd pt Hs Sp M Hn. destruct Hs as [<-|Hs]; [|apply (T2 sd pt); auto]. destruct (T1 pt Sp M Hn) as [X|X]; [left; apply M2; auto|right; apply F2; auto].
Qed.

(** *** The sets of namespaces *)
Lemma group_by_spec : forall {X} (key : X -> list ns) (val : X -> ns) l,
  (forall g a, In g (group_by key val l) -> In a (snd g) -> exists x, In x l /\ val x = a /\ forall n, In n (key x) <-> In n (fst g)) /\
  (forall x, In x l -> exists g, In g (group_by key val l) /\ In (val x) (snd g) /\ forall n, In n (key x) <-> In n (fst g)).
Proof using.
  intros X key val l. unfold group_by.
  assert (G : forall l d (T : X -> Prop),
    (forall g a, In g d -> In a (snd g) -> exists x, T x /\ val x = a /\ forall n, In n (key x) <-> In n (fst g)) ->
    (forall x, T x -> exists g, In g d /\ In (val x) (snd g) /\ forall n, In n (key x) <-> In n (fst g)) ->
    let d' := fold_left (fun d x => update same_ns (key x) [] (nadd (val x)) d) l d in
    (forall g a, In g d' -> In a (snd g) -> exists x, (T x \/ In x l) /\ val x = a /\ forall n, In n (key x) <-> In n (fst g)) /\
    (forall x, T x \/ In x l -> exists g, In g d' /\ In (val x) (snd g) /\ forall n, In n (key x) <-> In n (fst g))).
  { clear l. induction l as [|b l IH]; intros d T H1 H2; cbn [fold_left] in *.
    - split; [intros g a Hg Ha; destruct (H1 g a Hg Ha) as (x & Tx & E); exists x; auto|]. intros x [Tx|[]]. apply H2; auto.
    - destruct (IH (update same_ns (key b) [] (nadd (val b)) d) (fun x => T x \/ x = b)) as (I1 & I2).
      + intros g a Hg Ha. destruct (update_cases same_ns [] (nadd (val b)) (key b) d g Hg) as [Y|[(v & E & Y & Es)|Y]].
        * destruct (H1 g a Y Ha) as (x & Tx & E). exists x. auto.
        * rewrite Es in Ha. apply nadd_In in Ha as [->|Ha].
          -- exists b. split; auto. split; auto. apply same_ns_spec; auto.
          -- destruct (H1 _ a Y Ha) as (x & Tx & E'). exists x. auto.
        * subst g. cbn [fst snd] in *. apply nadd_In in Ha as [->|[]]. exists b. split; auto. split; auto. tauto.
      + intros x [Tx| ->].
        * destruct (H2 x Tx) as ([gk gv] & Hg & Hv & Hk). cbn [fst snd] in *. destruct (update_keeps same_ns [] (nadd (val b)) (key b) d gk gv Hg) as [Y|[_ Y]].
          -- exists (gk, gv). auto.
          -- exists (gk, nadd (val b) gv). split; auto. cbn [fst snd]. split; auto. apply nadd_In. auto.
        * destruct (update_has same_ns [] (nadd (val b)) (key b) d) as (gk & gv & Hg & Hc). exists (gk, nadd (val b) gv). split; auto. cbn [fst snd].
          split; [apply nadd_In; auto|]. destruct Hc as [[-> _]|[E _]]; [tauto|apply same_ns_spec; auto].
      + split.
        * intros g a Hg Ha. destruct (I1 g a Hg Ha) as (x & [[Tx| ->]|Hx] & E); [exists x|exists b|exists x]; (split; [|exact E]); auto; right; [left|right]; auto.
        * intros x [Tx|[<-|Hx]]; apply I2; auto. }
  destruct (G l [] (fun _ => False)) as (G1 & G2); [intros g a []|intros x []|]. split.
  - intros g a Hg Ha. destruct (G1 g a Hg Ha) as (x & [[]|Hx] & E). exists x. auto.
  - intros x Hx. apply G2. auto.
Qed.
Lemma filter_src_In : forall s (found : list (ns * ns)) d, In d (nset (map snd (filter (fun p => ns_eqb (fst p) s) found))) <-> In (s, d) found.
Proof using.
  intros s found d. rewrite nset_In, in_map_iff. split.
  - intros ([a b] & <- & H). apply filter_In in H as [H E]. apply ns_eqb_eq in E. cbn [fst snd] in *. subst a. exact H.
  - intros H. exists (s, d). split; auto. apply filter_In. split; auto. apply ns_eqb_eq; auto.
Qed.
Lemma filter_dst_In : forall d (found : list (ns * ns)) s, In s (nset (map fst (filter (fun p => ns_eqb (snd p) d) found))) <-> In (s, d) found.
Proof using.
  intros d found s. rewrite nset_In, in_map_iff. split.
  - intros ([a b] & <- & H). apply filter_In in H as [H E]. apply ns_eqb_eq in E. cbn [fst snd] in *. subst b. exact H.
  - intros H. exists (s, d). split; auto. apply filter_In. split; auto. apply ns_eqb_eq; auto.
Qed.
Lemma final_pairs_spec : forall found s d, (exists g, In g (final_pairs found) /\ In s (fst g) /\ In d (snd g)) <-> In (s, d) found.
Proof using.
  intros found s d. unfold final_pairs.
  set (of_src := fun s => nset (map snd (filter (fun p => ns_eqb (fst p) s) found))).
  set (of_dst := fun d => nset (map fst (filter (fun p => ns_eqb (snd p) d) found))).
  destruct (group_by_spec of_src (fun s => s) (nset (map fst found))) as (A1 & A2).
  destruct (group_by_spec of_dst (fun d => d) (nset (map snd found))) as (B1 & B2).
  assert (Fs : forall s d, In (s, d) found -> In s (nset (map fst found))) by (intros a b H; apply nset_In; apply in_map_iff; exists (a, b); auto).
  assert (Fd : forall s d, In (s, d) found -> In d (nset (map snd found))) by (intros a b H; apply nset_In; apply in_map_iff; exists (a, b); auto).
  destruct (_ <=? _); split.
  - intros (g & Hg & Hs & Hd). apply in_map_iff in Hg as (g' & <- & Hg). cbn [fst snd] in *. destruct (A1 g' s Hg Hs) as (x & Hx & -> & E).
    apply filter_src_In. apply E. exact Hd.
  - intros H. destruct (A2 s (Fs s d H)) as (g & Hg & Hs & E). exists (snd g, fst g). split; [apply in_map_iff; exists g; auto|]. cbn [fst snd]. split; auto.
    apply E. apply filter_src_In. exact H.
  - intros (g & Hg & Hs & Hd). destruct (B1 g d Hg Hd) as (x & Hx & -> & E). apply filter_dst_In. apply E. exact Hs.
  - intros H. destruct (B2 d (Fd s d H)) as (g & Hg & Hs & E). exists g. split; auto. split; auto. apply E. apply filter_dst_In. exact H.
Qed.
Lemma union_ns_pt : forall l x, pt_in x (fold_left (fun r n => ps_union r (ns_pods n)) l []) <-> exists n, In n l /\ pt_in x (ns_pods n).
Proof using.
  intros l [k n|y]; cbn [pt_in].
  - refine (iff_trans (union_ns_In cl ci l [] (Named k n)) _). split; [intros [[]|H]; exact H|auto].
  - split.
    + intros (m & H & M). apply union_ns_In in H as [[]|(n & H1 & H2)]. exists n. split; auto. exists m; auto.
    + intros (n & H1 & m & H2 & M). exists m. split; auto. apply union_ns_In. right. exists n; auto.
Qed.
Lemma union_ns_ok : forall l, pok vis (fold_left (fun r n => ps_union r (ns_pods n)) l []).
Proof using Hpeers.
  intros l. split.
  - intros m H. apply union_ns_In in H as [[]|(n & _ & H)]. exact (proj1 (ns_pods_ok n) m H).
  - intros k m H. apply union_ns_In in H as [[]|(n & _ & H)]. exact (proj2 (ns_pods_ok n) k m H).
Qed.
Lemma final_pairs_pair : forall found pt, (exists b, In b (map (fun p => (BNs (fst p), BNs (snd p))) (final_pairs found)) /\ in_pair b pt) <->
  exists sd, In sd found /\ ns_prod sd pt.
Proof using.
  intros found pt. split.
  - intros (b & Hb & P). apply in_map_iff in Hb as (g & <- & Hg). destruct P as [P1 P2]. cbn [fst snd base_peers] in P1, P2.
    apply union_ns_pt in P1 as (s & Hs & P1). apply union_ns_pt in P2 as (d & Hd & P2). exists (s, d). split; [|split; auto]. apply final_pairs_spec. exists g. auto.
  - intros ([s d] & H & [P1 P2]). apply final_pairs_spec in H as (g & Hg & Hs & Hd). exists (BNs (fst g), BNs (snd g)). split; [apply in_map_iff; exists g; auto|].
    split; cbn [fst snd base_peers]; apply union_ns_pt; [exists s|exists d]; auto.
Qed.

(** *** Moving connections from the remaining ones to pairs *)
Definition st_inv (st : state (C:=C)) : Prop :=
  cok (fst st) /\ safe (fst st) /\ ponly (fst st) /\ (forall pt, space pt -> cmem pt (fst st) -> cmem pt pp) /\
  (forall b, In b (snd st) -> base_ok (fst b) /\ base_ok (snd b) /\ forall pt, space pt -> in_pair b pt -> cmem pt cov0).
Definition st_covers (st : state (C:=C)) (pt : Pt) : Prop := cmem pt (fst st) \/ exists b, In b (snd st) /\ in_pair b pt.
Definition st_step (st st' : state (C:=C)) : Prop := st_inv st' /\ forall pt, space pt -> st_covers st pt -> st_covers st' pt.
Lemma st_refl : forall st, st_inv st -> st_step st st.
Proof using. intros st H. split; auto. Qed.
Lemma st_trans : forall a b c, st_step a b -> st_step b c -> st_step a c.
Proof using. intros a b c [H1 H2] [H3 H4]. split; auto. Qed.
(** A rectangle with a source that it does not contain. *)
Definition has_other (b : bool) (s t : peerset) : Prop :=
  forall p, space p -> pt_in (side b p) s -> pt_in (side (negb b) p) t -> exists x, anywhere vis x /\ ~ pt_in x (if b then s else t).
Lemma remove_pair : forall b s t x y st, st_inv st -> pok vis s -> pok vis t -> covers b s t cov0 -> has_other b s t ->
  base_ok x -> base_ok y -> (forall z, pt_in z (base_peers x) <-> pt_in z s) -> (forall z, pt_in z (base_peers y) <-> pt_in z t) ->
  st_step st (c_sub A (fst st) (rect_at b s t), snd st ++ [pair_at b x y]).
Proof using L QL.
  intros b s t x y [rest pairs] (K & S & P & I & Bp) Ps Pt' Cv Ho Bx By Ex Ey. cbn [fst snd] in *.
  assert (Rm : forall pt, space pt -> (cmem pt (rect_at b s t) <-> pt_in (side b pt) s /\ pt_in (side (negb b) pt) t)) by (intros pt Sp; apply rect_at_mem; auto).
  destruct (sub_safe rest (rect_at b s t) K (rect_at_ok b s t Ps Pt') S) as (K' & S' & M').
  { destruct b; unfold FWModel.rect_at; apply rect_constrains; auto; intros p Sp M; apply rect_mem in M as [M1 M2]; auto; exact (Ho p Sp M1 M2) || exact (Ho p Sp M2 M1). }
  assert (Pm : forall pt, in_pair (pair_at b x y) pt <-> pt_in (side b pt) s /\ pt_in (side (negb b) pt) t).
  { intros pt. destruct b; unfold in_pair, pair_at; cbn [fst snd side negb]; rewrite Ex, Ey; tauto. }
  split.
  - split; auto. split; auto. split; [apply (sub_ponly rest (rect_at b s t)); auto; apply rect_at_ponly; auto|]. cbn [fst snd]. split; [intros pt Sp X; apply I; auto; apply (M' pt Sp) in X; tauto|].
    intros q Hq. apply in_app_iff in Hq as [Hq|[<-|[]]]; [apply Bp; auto|]. split; [|split].
    + destruct b; cbn [pair_at fst]; auto.
    + destruct b; cbn [pair_at snd]; auto.
    + intros pt Sp X. apply Pm in X as [X1 X2]. apply Cv; auto.
  - intros pt Sp [X|(q & Hq & X)]; cbn [fst snd] in *.
    + destruct (law l_dec (rect_at b s t) pt (rect_at_ok b s t Ps Pt')) as [R|R].
      * right. exists (pair_at b x y). cbn [snd]. split; [apply in_app_iff; right; left; auto|]. apply Pm. apply (Rm pt Sp); auto.
      * left. cbn [fst]. apply (M' pt Sp). auto.
    + right. exists q. cbn [snd]. split; auto. apply in_app_iff; auto.
Qed.
Lemma subtract_if_step : forall b sp s t st, st_inv st -> pok vis t -> within t -> s = fold_left (fun r n => ps_union r (ns_pods n)) sp [] ->
  covers b s t cov0 -> has_other b s t -> st_step st (subtract_if A b sp s t st).
Proof using L QL Hpeers.
  intros b sp s t st I Pt' Wt -> Cv Ho. unfold subtract_if. destruct (c_eqb A _ _); [apply st_refl; auto|].
  apply remove_pair; auto; try (apply union_ns_ok); try exact Logic.I; intros z; cbn [base_peers]; tauto.
Qed.

(** *** The cubes of what is covered *)
Definition dim_cube (b : bool) (cov : C) (k : peerset * peerset) : Prop :=
  pok vis (fst k) /\ pok vis (snd k) /\ (exists y, pt_in y (fst k)) /\ (exists y, pt_in y (snd k)) /\ covers b (fst k) (snd k) cov.
Lemma cubes_of_dim_spec : forall b cov, cok cov -> ponly cov -> good_obj cov -> exists ks, cubes_of_dim F b cov = Some ks /\ forall k, In k ks -> dim_cube b cov k.
Proof using QL W.
  intros b cov K P G. unfold cubes_of_dim.
  assert (H : exists l, (if b then f_switched F cov else f_cubes F cov) = Some l /\ cubes_of cov l).
  { destruct b; [apply (w_switched W)|apply (w_cubes W)]; auto; apply good_not_all; auto. }
  destruct H as (l & -> & (H1 & _ & H3)). cbn [bind]. specialize (H3 P).
  assert (H2 : forall k, In k l -> covers b (if b then fst k else snd k) (if b then snd k else fst k) cov).
  { intros k Hk pt Sp X1 X2. apply (H3 k pt); auto. destruct b; split; auto. }
  clear H3. induction l as [|k l IH]; cbn [mapM]; [exists []; split; auto; intros k []|].
  destruct IH as (ks & E & Hk); [intros q Hq; apply H1; right; auto|intros q Hq; apply H2; right; auto|].
  destruct (H1 k (or_introl eq_refl)) as (P1 & P2 & N1 & N2).
  assert (P3 : pok vis (if b then snd k else fst k)) by (destruct b; auto).
  destruct (ps_canonical_ok _ (proj1 P3)) as (o & Eo & Oo & Mo & _). rewrite Eo. cbn [bind]. rewrite E. cbn [bind].
  eexists. split; [reflexivity|]. intros q [<-|Hq]; [|apply Hk; auto]. specialize (H2 k (or_introl eq_refl)). split; [|split; [|split; [|split]]]; cbn [fst snd].
  - destruct b; auto.
  - split; auto. intros kk nn Hn. apply (proj2 P3). apply (Mo (PN kk nn)). exact Hn.
  - destruct b; auto.
  - assert (N3 : exists y, pt_in y (if b then snd k else fst k)) by (destruct b; auto). destruct N3 as (y & Hy). exists y. apply Mo. exact Hy.
  - intros pt Sp X1 X2. apply H2; auto. apply Mo. exact X2.
Qed.
Lemma dim_cube_within : forall b cov k, good_obj cov -> dim_cube b cov k -> within (fst k) /\ within (snd k).
Proof using QL.
  intros b cov k G (P1 & P2 & N1 & N2 & Cv). split; [apply (covers_within b (fst k) (snd k) cov)|apply (covers_within' b (fst k) (snd k) cov)]; auto.
Qed.
Lemma pok_union : forall s t, pok vis s -> pok vis t -> pok vis (ps_union s t).
Proof using.
  intros s t [A1 A2] [B1 B2]. split; [intros l H|intros k n H]; apply ps_union_In in H as [H|H]; auto.
Qed.
Lemma within_union : forall s t, within s -> within t -> within (ps_union s t).
Proof using. intros s t [P1 K1] [P2 K2]. split; [apply pok_union; auto|]. intros x H. apply pt_in_union in H as [H|H]; auto. Qed.
Lemma within_nil : within [].
Proof using. split; [split; [intros l []|intros k n []]|]. intros [k n|y] H; cbn [pt_in] in H; [destruct H|destruct H as (l & [] & _)]. Qed.

(** *** Namespaces on one side *)
Definition ns_entry (b : bool) (cov : C) (g : list ns * peerset) : Prop :=
  within (snd g) /\ forall n, In n (fst g) -> covers b (ns_pods n) (snd g) cov.
Lemma partial_map_spec : forall b spaces rest cov ks, good_obj cov -> (forall k, In k ks -> dim_cube b cov k) ->
  forall g, In g (partial_map cl ci A b spaces rest ks) -> ns_entry b cov g.
Proof using QL Hpeers.
  intros b spaces rest cov ks G Hk. unfold partial_map.
  assert (X : forall d, (forall g, In g d -> ns_entry b cov g) -> forall g, In g (fold_left (fun d k =>
    let curr := filter (fun n => subset_of (ns_pods n) (fst k) && c_bool A (c_and A (rect_at b (ns_pods n) (snd k)) rest)) spaces in
    match curr with [] => d | _ => update same_ns curr [] (fun s => ps_union s (snd k)) d end) ks d) -> ns_entry b cov g); [|apply X; intros g []].
  induction ks as [|k ks IH]; intros d Hd g; cbn [fold_left]; [apply Hd|]. apply IH; [intros q Hq; apply Hk; right; auto|]. clear g. intros g.
  set (curr := filter _ spaces). cbv zeta.
  pose proof (Hk k (or_introl eq_refl)) as Dk. destruct (dim_cube_within b cov k G Dk) as [_ Wk]. destruct Dk as (P1 & P2 & N1 & N2 & Cv).
  assert (Hc : forall n, In n curr -> covers b (ns_pods n) (snd k) cov).
  { intros n Hn. apply filter_In in Hn as [_ Hn]. apply andb_true_iff in Hn as [Hn _]. apply subset_of_spec with (1 := Hn) || rewrite subset_of_spec in Hn.
    intros pt Sp X1 X2. apply Cv; auto. destruct (side b pt) as [kk nn|y]; [apply Hn; auto|]. destruct (ns_pods_addr n y X1). }
  destruct curr as [|c0 cs] eqn:E; [apply Hd|]. rewrite <- E in *. intros Hg.
  destruct (update_cases same_ns [] (fun s => ps_union s (snd k)) curr d g Hg) as [Y|[(v & Es & Y & Ev)|Y]]; [apply Hd; auto| |].
  - destruct (Hd _ Y) as [Wv Cvv]. destruct g as [gk gv]. cbn [fst snd] in *. subst gv. split; [apply within_union; auto|]. cbn [fst snd].
    intros n Hn pt Sp X1 X2. apply pt_in_union in X2 as [X2|X2]; [apply (Cvv n); auto|apply (Hc n); auto]. apply (same_ns_spec curr gk); auto.
  - subst g. split; cbn [fst snd]; [apply within_union; auto; apply within_nil|]. intros n Hn pt Sp X1 X2. apply pt_in_union in X2 as [X2|X2]; [|apply (Hc n); auto].
    destruct (within_nil) as [_ _]. destruct (side (negb b) pt); cbn [pt_in] in X2; [destruct X2|destruct X2 as (? & [] & _)].
Qed.
Lemma partial_step_spec : forall b cov g st, (forall pt, space pt -> cmem pt cov -> cmem pt cov0) -> st_inv st -> ns_entry b cov g ->
  exists st', partial_step cl ci A b st g = Some st' /\ st_step st st'.
Proof using L QL W Hpeers.
  intros b cov g st Cc I [Wg Cg]. unfold partial_step. cbv zeta.
  destruct (ip_canonical_ok (snd g) (proj1 (proj1 Wg))) as (ips & Ei & Oi & Mi). rewrite Ei. cbn [bind]. eexists. split; [reflexivity|].
  set (peers := fold_left (fun r n => ps_union r (ns_pods n)) (fst g) []).
  assert (Cv : covers b peers (snd g) cov0).
  { intros pt Sp X1 X2. unfold peers in X1. rewrite union_ns_pt in X1. destruct X1 as (n & Hn & X1). apply Cc; auto. apply (Cg n); auto. }
  assert (Na : forall y, ~ pt_in (PA y) peers) by (intros y H; unfold peers in H; rewrite union_ns_pt in H; destruct H as (n & _ & H); exact (ns_pods_addr n y H)).
  set (plain := without_ip_block (snd g)).
  assert (Mp : forall x, pt_in x plain -> pt_in x (snd g)).
  { intros [k n|y] H; cbn [pt_in] in *; [apply without_In in H; tauto|]. destruct H as (l & H & M). apply without_In in H as [H _]. exists l; auto. }
  assert (Np' : forall y, ~ pt_in (PA y) plain) by (intros y (l & H & _); apply without_In in H as [_ H]; discriminate).
  assert (Wp : within plain).
  { split; [|intros x Hx; apply (proj2 Wg); auto]. split; [intros l H; apply without_In in H as [_ H]; discriminate|]. intros k n H. apply without_In in H as [H _]. apply (proj2 (proj1 Wg)); auto. }
  set (blocks := block_peer_set ips).
  assert (Mb : forall x, pt_in x blocks -> pt_in x (snd g)).
  { intros x H. unfold blocks in H. rewrite block_peer_set_In in H; auto. destruct H as (y & -> & M). apply Mi; auto. }
  assert (Wb : within blocks).
  { split; [|intros x Hx; apply (proj2 Wg); auto]. split; [apply block_peer_set_ok; auto|]. intros k n H. assert (X : pt_in (PN k n) blocks) by exact H. unfold blocks in X. rewrite block_peer_set_In in X; auto. destruct X as (y & X & _). discriminate. }
  assert (S1 : st_step st (subtract_if A b (fst g) peers plain st)).
  { apply subtract_if_step; auto; [exact (proj1 Wp)|intros pt Sp X1 X2; apply Cv; auto|]. intros p Sp X1 X2. exists (PA 0). split; [apply pa0|]. destruct b; auto. }
  apply (st_trans _ _ _ S1). apply subtract_if_step; auto; [exact (proj1 S1)|exact (proj1 Wb)|intros pt Sp X1 X2; apply Cv; auto|].
  intros p Sp X1 X2. destruct b; [exists (PA 0); split; [apply pa0|auto]|].
  destruct (w_pod W) as (k & n & Hv). exists (PN k n). split; [left; exact Hv|]. intros X. unfold blocks in X. rewrite block_peer_set_In in X; auto. destruct X as (y & X & _). discriminate.
Qed.
Lemma partial_grouping_spec : forall b spaces cov st, cok cov -> ponly cov -> good_obj cov -> (forall pt, space pt -> cmem pt cov -> cmem pt cov0) -> st_inv st ->
  exists st', partial_grouping cl ci A F b spaces cov st = Some st' /\ st_step st st'.
Proof using L QL W Hpeers.
  intros b spaces cov st K P G Cc I. unfold partial_grouping. destruct (cubes_of_dim_spec b cov K P G) as (ks & -> & Hk). cbn [bind].
  pose proof (partial_map_spec b spaces (fst st) cov ks G Hk) as He. revert He. generalize (partial_map cl ci A b spaces (fst st) ks). clear Hk ks.
  intros l He. assert (G' : forall st0, st_step st st0 -> exists st', fold_left (fun acc g => bind acc (fun st => partial_step cl ci A b st g)) l (Some st0) = Some st' /\ st_step st st');
    [|apply G'; apply st_refl; auto].
  induction l as [|g l IH]; intros st0 S0; cbn [fold_left]; [exists st0; auto|]. cbn [bind].
  destruct (partial_step_spec b cov g st0 Cc (proj1 S0) (He g (or_introl eq_refl))) as (st1 & -> & S1). apply IH; [intros q Hq; apply He; right; auto|].
  apply (st_trans _ _ _ S0 S1).
Qed.

(** *** All addresses, or DNS entries, on one side *)
Definition out_entry (b : bool) (cov : C) (g : peerset * peerset) : Prop :=
  within (fst g) /\ within (snd g) /\ covers b (fst g) (snd g) cov /\ ((forall x, pt_in x (fst g) -> is_addr x) \/ (forall x, pt_in x (fst g) -> named_dns x)).
Lemma add_if_covered_spec : forall b rest cov s t d, out_entry b cov (s, t) -> (forall g, In g d -> out_entry b cov g) ->
  forall g, In g (add_if_covered A b rest s t d) -> out_entry b cov g.
Proof using.
  intros b rest cov s t d (W1 & W2 & Cv & Sd) Hd g. unfold add_if_covered. destruct (c_bool A _); [|apply Hd]. intros Hg. cbn [fst snd] in *.
  destruct (update_cases same_peers [] (fun u => ps_union u t) s d g Hg) as [Y|[(v & Es & Y & Ev)|Y]]; [apply Hd; auto| |].
  - destruct (Hd _ Y) as (V1 & V2 & V3 & V4). destruct g as [gk gv]. cbn [fst snd] in *. subst gv. split; auto. cbn [fst snd]. split; [apply within_union; auto|]. split; [|exact V4].
    intros pt Sp X1 X2. apply pt_in_union in X2 as [X2|X2]; [apply V3; auto|]. apply Cv; auto. rewrite (pt_in_same s gk); auto. apply same_peers_spec; auto.
  - subst g. split; [|split; [|split]]; cbn [fst snd]; auto; [apply within_union; auto; apply within_nil|].
    intros pt Sp X1 X2. apply pt_in_union in X2 as [X2|X2]; [|apply Cv; auto]. destruct (side (negb b) pt); cbn [pt_in] in X2; [destruct X2|destruct X2 as (? & [] & _)].
Qed.
Lemma covers_sub : forall b s s' t cov, covers b s t cov -> (forall x, pt_in x s' -> pt_in x s) -> covers b s' t cov.
Proof using. intros b s s' t cov H M pt Sp X1 X2. apply H; auto. Qed.
Lemma outside_map_spec : forall b rest cov ks, good_obj cov -> (forall k, In k ks -> dim_cube b cov k) ->
  exists d, fold_left (outside_map_step A b rest) ks (Some []) = Some d /\ forall g, In g d -> out_entry b cov g.
Proof using QL.
  intros b rest cov ks G Hk.
  assert (X : forall d0, (forall g, In g d0 -> out_entry b cov g) -> exists d, fold_left (outside_map_step A b rest) ks (Some d0) = Some d /\ forall g, In g d -> out_entry b cov g);
    [|apply X; intros g []].
  induction ks as [|k ks IH]; intros d0 H0; cbn [fold_left]; [exists d0; auto|]. unfold outside_map_step at 2. cbn [bind].
  pose proof (Hk k (or_introl eq_refl)) as Dk. destruct (dim_cube_within b cov k G Dk) as [Wf Wk]. destruct Dk as (P1 & P2 & N1 & N2 & Cv).
  destruct (ip_canonical_ok (fst k) (proj1 P1)) as (ips & Ei & Oi & Mi). rewrite Ei. cbn [bind]. cbv zeta. apply IH; [intros q Hq; apply Hk; right; auto|].
  assert (Mb : forall x, pt_in x (block_peer_set ips) -> pt_in x (fst k) /\ is_addr x).
  { intros x H. rewrite block_peer_set_In in H; auto. destruct H as (y & -> & M). split; [apply Mi; auto|]. cbn [is_addr]. exact (proj2 Oi y M). }
  assert (H1 : forall g, In g (if is_full ips then add_if_covered A b rest (block_peer_set ips) (snd k) d0 else d0) -> out_entry b cov g).
  { destruct (is_full ips); [|exact H0]. apply add_if_covered_spec; auto. split; [|split; [|split]]; cbn [fst snd]; auto.
    - split; [|intros x H; apply (proj2 Wf); apply Mb; auto]. split; [apply block_peer_set_ok; auto|]. intros kk n H. assert (X : pt_in (PN kk n) (block_peer_set ips)) by exact H.
      destruct (Mb _ X) as [_ []].
    - apply (covers_sub b (fst k)); auto. intros x H. apply Mb; auto.
    - left. intros x H. apply Mb; auto. }
  revert H1. generalize (if is_full ips then add_if_covered A b rest (block_peer_set ips) (snd k) d0 else d0). intros d1 H1.
  assert (Hd : forall p, In p (get_dns_entries (fst k)) -> exists n, p = Named kind_dns n /\ In p (fst k)).
  { intros p H. apply filter_In in H as [H E]. destruct p as [kk n|l]; [|discriminate]. cbn [is_dns] in E. apply Nat.eqb_eq in E. subst kk. exists n; auto. }
  revert d1 H1. induction (get_dns_entries (fst k)) as [|p l IHl]; intros d1 H1; cbn [fold_left]; [exact H1|].
  apply IHl; [intros q Hq; apply Hd; right; auto|]. apply add_if_covered_spec; auto. destruct (Hd p (or_introl eq_refl)) as (n & -> & Hin).
  assert (Mx : forall x, pt_in x [Named kind_dns n] -> x = PN kind_dns n).
  { intros [kk m|y]; cbn [pt_in In]; [intros [X|[]]; congruence|intros (u & [X|[]] & _); discriminate]. }
  split; [|split; [|split]]; cbn [fst snd]; auto.
  - split; [|intros x H; apply (proj2 Wf); rewrite (Mx x H); exact Hin]. split; [intros u [X|[]]; discriminate|]. intros kk m [X|[]]. rewrite <- X. exact (proj2 P1 _ _ Hin).
  - apply (covers_sub b (fst k)); auto. intros x H. rewrite (Mx x H). exact Hin.
  - right. intros x H. rewrite (Mx x H). reflexivity.
Qed.
Lemma outside_grouping_spec : forall b cov st, cok cov -> ponly cov -> good_obj cov -> good_obj cov0 -> (forall pt, space pt -> cmem pt cov -> cmem pt cov0) -> st_inv st ->
  exists st', outside_grouping A F b cov st = Some st' /\ st_step st st'.
Proof using L QL W Hpeers.
  intros b cov st K P G G0 Cc I. unfold outside_grouping. destruct (cubes_of_dim_spec b cov K P G) as (ks & -> & Hk). cbn [bind].
  destruct (outside_map_spec b (fst st) cov ks G Hk) as (d & -> & Hd). cbn [bind]. eexists. split; [reflexivity|].
  assert (X : forall st0, st_step st st0 -> st_step st (fold_left (outside_step A b) d st0)); [|apply X; apply st_refl; auto].
  induction d as [|g d IH]; intros st0 S0; cbn [fold_left]; [exact S0|]. apply IH; [intros q Hq; apply Hd; right; auto|].
  apply (st_trans _ _ _ S0). destruct (Hd g (or_introl eq_refl)) as (W1 & W2 & Cv & Sd). unfold outside_step.
  apply remove_pair; auto; try exact (proj1 S0); try exact (proj1 W1); try exact (proj1 W2); try (intros z; cbn [base_peers]; tauto).
  - intros pt Sp X1 X2. apply Cc; auto.
  - intros p Sp X1 X2. destruct b; cbn [side negb] in *.
    + destruct Sd as [Sd|Sd].
      * destruct (w_pod W) as (k & n & Hv). exists (PN k n). split; [left; exact Hv|]. intros Y. destruct (Sd _ Y).
      * exists (PA 0). split; [apply pa0|]. intros Y. destruct (Sd _ Y).
    + exists (PA 0). split; [apply pa0|]. intros Y.
      destruct (point_at false (dst p) (PA 0)) as (q & Sq & E1 & E2); [apply (qlaw q_ends p Sp)|apply pa0|].
      assert (M : cmem q cov) by (apply Cv; auto; cbn [side negb] in *; congruence). destruct (G q Sq M) as ((Q1 & _) & _). cbn [side negb] in E1, E2. rewrite E1, E2 in Q1.
      apply Q1. split; [apply v4_addr|]. destruct Sd as [Sd|Sd]; [left|right]; apply Sd; exact X1.
Qed.

Lemma if_any_spec : forall (f : state (C:=C) -> option state) st, st_inv st -> (forall st, st_inv st -> exists st', f st = Some st' /\ st_step st st') ->
  exists st', if_any A f st = Some st' /\ st_step st st'.
Proof using. intros f st I H. unfold if_any. destruct (c_bool A (fst st)); [apply H; auto|]. exists st. split; auto. apply st_refl; auto. Qed.

(** *** The grouping *)
Lemma basic_grouping_spec : exists found st, basic_grouping cl ci A Q F pp cont = Some (final_pairs found, st) /\ st_inv st /\
  (forall sd pt, In sd found -> space pt -> ns_prod sd pt -> cmem pt cov0) /\
  (forall pt, space pt -> cmem pt pp -> (exists sd, In sd found /\ ns_prod sd pt) \/ st_covers st pt).
Proof using L QL W Hpeers Kp Kc Pp Pc Gp Gc Np.
  destruct covered_spec as (K0 & P0 & G0 & S0 & T0).
  set (spaces := fun b => nset (map (cl_ns cl) (filter is_pod (f_side F b cov0)))).
  set (pairs := flat_map (fun s => map (fun d => (s, d)) (spaces false)) (spaces true)).
  set (no_ns := fun b => filter (fun p => negb (is_pod p)) (f_side F b pp)).
  set (outside := c_or A (c_rect A (Some (no_ns true)) None None) (c_rect A None (Some (no_ns false)) None)).
  assert (BG : basic_grouping cl ci A Q F pp cont = match fold_left (full_step cl ci A pp) pairs (cov0, c_empty A, []) with (cov, rest, found) =>
    bind (partial_grouping cl ci A F false (spaces false) cov (c_or A rest (c_and A outside pp), [])) (fun st =>
    bind (if_any A (partial_grouping cl ci A F true (spaces true) cov) st) (fun st =>
    bind (if_any A (outside_grouping A F false cov) st) (fun st =>
    bind (if_any A (outside_grouping A F true cov) st) (fun st => Some (final_pairs found, st))))) end) by reflexivity.
  rewrite BG. clear BG.
  assert (I0 : full_inv (cov0, c_empty A, [])).
  { cbn [full_inv]. split; auto. split; auto. split; auto. split; [apply (law l_empty_ok)|]. split; [intros y Ky; apply (law l_safe_fresh); auto|].
    split; [apply empty_ponly|]. split; [intros pt _ M; destruct (law l_empty pt M)|intros sd pt []]. }
  destruct (full_fold_spec pairs _ I0) as (I1 & _ & _ & T1).
  destruct (fold_left (full_step cl ci A pp) pairs (cov0, c_empty A, [])) as [[cov rest] found]. cbn [fst snd] in T1.
  destruct I1 as (K1 & P1 & C1 & K2 & S2 & P2 & C2 & F2).
  assert (G1 : good_obj cov) by (intros pt Sp M; apply G0; auto).
  assert (Ns : forall b, pok vis (no_ns b) /\ forall x, pt_in x (no_ns b) <-> pt_in x (f_side F b pp) /\ ~ (exists n, x = PN 0 n)).
  { intros b. destruct (w_side W b pp Kp Np) as ([O1 O2] & _). split; [split; [intros l H|intros k n H]; apply filter_In in H as [H _]; auto|]. intros [k n|y]; cbn [pt_in]; unfold no_ns.
    - rewrite filter_In, negb_true_iff. cbn [is_pod]. rewrite Nat.eqb_neq. split; intros [H1 H2]; (split; [exact H1|]); [intros (m & E); congruence|intros ->; apply H2; eauto].
    - split; [intros (l & H & M); apply filter_In in H as [H _]; split; [exists l; auto|intros (n & E); discriminate]|].
      intros [(l & H & M) _]. exists l. split; auto. apply filter_In. auto. }
  assert (Kr1 : cok (c_rect A (Some (no_ns true)) None None)) by (apply (law l_rect_ok (Some (no_ns true)) None None); [apply Ns|exact I]).
  assert (Kr2 : cok (c_rect A None (Some (no_ns false)) None)) by (apply (law l_rect_ok None (Some (no_ns false)) None); [exact I|apply Ns]).
  assert (Mr1 : forall pt, space pt -> (cmem pt (c_rect A (Some (no_ns true)) None None) <-> pt_in (src pt) (no_ns true))).
  { intros pt Sp. refine (iff_trans (law l_rect (Some (no_ns true)) None None pt (proj1 (Ns true)) I Sp) _). cbn [opt]. tauto. }
  assert (Mr2 : forall pt, space pt -> (cmem pt (c_rect A None (Some (no_ns false)) None) <-> pt_in (dst pt) (no_ns false))).
  { intros pt Sp. refine (iff_trans (law l_rect None (Some (no_ns false)) None pt I (proj1 (Ns false)) Sp) _). cbn [opt]. tauto. }
  assert (Ko : cok outside) by (apply (law l_or_ok); auto).
  assert (Mo : forall pt, space pt -> (cmem pt outside <-> pt_in (src pt) (no_ns true) \/ pt_in (dst pt) (no_ns false))).
  { intros pt Sp. refine (iff_trans (law l_or _ _ pt Kr1 Kr2 Sp) _). rewrite (Mr1 pt Sp), (Mr2 pt Sp). tauto. }
  assert (Po : ponly outside).
  { intros p q Sp Sq E1 E2 M. apply (Mo q Sq). apply (Mo p Sp) in M. rewrite <- E1, <- E2. exact M. }
  assert (Ka : cok (c_and A outside pp)) by (apply (law l_and_ok); auto).
  assert (Ma : forall pt, space pt -> (cmem pt (c_and A outside pp) <-> cmem pt outside /\ cmem pt pp)) by (intros pt Sp; apply (law l_and); auto).
  set (rest' := c_or A rest (c_and A outside pp)).
  assert (Mr : forall pt, space pt -> (cmem pt rest' <-> cmem pt rest \/ cmem pt (c_and A outside pp))) by (intros pt Sp; apply (law l_or); auto).
  assert (Is : st_inv (rest', [])).
  { split; [apply (law l_or_ok); auto|]. split; [apply or_safe; auto|]. split; [apply or_ponly; auto; apply and_ponly; auto|]. cbn [fst snd]. split; [|intros b []].
    intros pt Sp M. apply (Mr pt Sp) in M as [M|M]; [auto|]. apply (Ma pt Sp) in M. tauto. }
  destruct (partial_grouping_spec false (spaces false) cov (rest', []) K1 P1 G1 C1 Is) as (s1 & E1 & T2). rewrite E1. cbn [bind].
  destruct (if_any_spec (partial_grouping cl ci A F true (spaces true) cov) s1 (proj1 T2)) as (s2 & E2 & T3);
    [intros st Hst; exact (partial_grouping_spec true (spaces true) cov st K1 P1 G1 C1 Hst)|]. rewrite E2. cbn [bind].
  destruct (if_any_spec (outside_grouping A F false cov) s2 (proj1 T3)) as (s3 & E3 & T4);
    [intros st Hst; exact (outside_grouping_spec false cov st K1 P1 G1 G0 C1 Hst)|]. rewrite E3. cbn [bind].
  destruct (if_any_spec (outside_grouping A F true cov) s3 (proj1 T4)) as (s4 & E4 & T5);
    [intros st Hst; exact (outside_grouping_spec true cov st K1 P1 G1 G0 C1 Hst)|]. rewrite E4. cbn [bind].
  exists found, s4. split; [reflexivity|]. split; [exact (proj1 T5)|]. split; [exact F2|].
  pose proof (st_trans _ _ _ T2 (st_trans _ _ _ T3 (st_trans _ _ _ T4 T5))) as [_ T]. clear T2 T3 T4 T5 E1 E2 E3 E4.
  intros pt Sp M.
  assert (Pod : forall x, (exists n, x = PN 0 n) \/ ~ (exists n, x = PN 0 n)).
  { intros [[|k] n|y]; [left; exists n; auto|right; intros (m & E); discriminate|right; intros (m & E); discriminate]. }
  destruct (Gp pt Sp M) as (_ & Ks & Kd).
  assert (Side : forall b n, side b pt = PN 0 n -> known ci (Named 0 n) -> In (cl_ns cl (Named 0 n)) (spaces b) /\ pt_in (side b pt) (ns_pods (cl_ns cl (Named 0 n)))).
  { intros b n E Kn. split.
    - apply nset_In. apply in_map. apply filter_In. split; [|reflexivity]. destruct (w_side W b cov0 K0) as [_ Hs]; [exists pt; split; auto|].
      apply (Hs (PN 0 n)). exists pt. auto.
    - rewrite E. cbn [pt_in]. apply ns_pods_In. split; [exact Kn|]. auto. }
  assert (Out : forall b, (~ exists n, side b pt = PN 0 n) -> st_covers s4 pt).
  { intros b Nb. apply (T pt Sp). left. cbn [fst]. apply (Mr pt Sp). right. apply (Ma pt Sp). split; auto. apply (Mo pt Sp).
    assert (X : pt_in (side b pt) (no_ns b)) by (apply Ns; split; auto; destruct (w_side W b pp Kp Np) as [_ Hs]; apply Hs; exists pt; auto).
    destruct b; [left|right]; exact X. }
  destruct (Pod (side true pt)) as [(n & En)|N1]; [|right; apply (Out true N1)]. destruct (Pod (side false pt)) as [(m & Em)|N2]; [|right; apply (Out false N2)].
  cbn [side] in En, Em. rewrite En in Ks. rewrite Em in Kd.
  destruct (Side true n En Ks) as [A1 A2]. destruct (Side false m Em Kd) as [B1 B2].
  destruct (T1 (cl_ns cl (Named 0 n), cl_ns cl (Named 0 m)) pt) as [X|X]; [|exact Sp|exact M| | |].
  - apply in_flat_map. exists (cl_ns cl (Named 0 n)). split; auto. apply in_map_iff. exists (cl_ns cl (Named 0 m)). auto.
  - split; auto.
  - right. apply (T pt Sp). left. cbn [fst]. apply (Mr pt Sp). auto.
  - left. eexists. split; [exact X|]. split; auto.
Qed.

(** *** The remaining connections *)
Lemma rules_of_cubes_spec : forall o x l, o = Some l -> cubes_of x l -> ponly x -> good_obj x ->
  exists r, rules_of_cubes cl ci single o = Some r /\ (forall pt, space pt -> cmem pt x -> exists e, In e r /\ in_rule e pt) /\
            (forall e pt, In e r -> space pt -> in_rule e pt -> cmem pt x).
Proof using QL.
  intros o x l -> (H1 & H2 & H3) P G. unfold rules_of_cubes. cbn [bind].
  assert (Fb : forallb (fun k => pbool (fst k) && pbool (snd k)) l = true).
  { apply forallb_forall. intros k Hk. destruct (H1 k Hk) as (_ & _ & (y & Hy) & z & Hz).
    assert (B : forall s y, pt_in y s -> pbool s = true) by (intros [|a s] [kk nn|q] Hq; [destruct Hq|destruct Hq as (? & [] & _)|reflexivity|reflexivity]).
    rewrite (B _ _ Hy), (B _ _ Hz). reflexivity. }
  rewrite Fb. destruct (pairs_spec single (map (fun k => (BPeers (fst k), BPeers (snd k))) l)) as (r & Er & Mr).
  { intros b Hb. apply in_map_iff in Hb as (k & <- & Hk). cbn [fst snd base_ok]. destruct (H1 k Hk) as (Q1 & Q2 & N1 & N2).
    assert (Cv : covers true (fst k) (snd k) x) by (intros pt Sp X1 X2; apply (H3 P k pt); auto; split; auto).
    split; [apply (covers_within true (fst k) (snd k) x)|apply (covers_within' true (fst k) (snd k) x)]; auto. }
  exists r. split; auto. split.
  - intros pt Sp M. apply Mr. destruct (H2 pt Sp M) as (k & Hk & X). exists (BPeers (fst k), BPeers (snd k)). split; [apply in_map_iff; exists k; auto|]. exact X.
  - intros e pt He Sp X. destruct (proj2 (Mr pt)) as (b & Hb & Y); [exists e; auto|]. apply in_map_iff in Hb as (k & <- & Hk). apply (H3 P k pt); auto.
Qed.
Lemma rules_of_props_spec : forall x, cok x -> safe x -> ponly x -> good_obj x ->
  exists r, rules_of_props cl ci A F single x = Some r /\ (forall pt, space pt -> cmem pt x -> exists e, In e r /\ in_rule e pt) /\
            (forall e pt, In e r -> space pt -> in_rule e pt -> cmem pt x).
Proof using L QL W.
  intros x K S P G. unfold rules_of_props. cbv zeta. destruct (all_ips_set_spec vis) as [Pall Mall].
  set (rs := c_rect A (Some all_ips_set) None None). set (rd := c_rect A None (Some all_ips_set) None).
  assert (Ks : cok rs) by (apply (law l_rect_ok (Some all_ips_set) None None); [exact Pall|exact I]).
  assert (Kd : cok rd) by (apply (law l_rect_ok None (Some all_ips_set) None); [exact I|exact Pall]).
  assert (Ps : ponly rs).
  { intros p q Sp Sq E1 E2 M. apply (law l_rect (Some all_ips_set) None None) in M; [|exact Pall|exact I|exact Sp]. apply (law l_rect (Some all_ips_set) None None); [exact Pall|exact I|exact Sq|]. rewrite <- E1. exact M. }
  assert (Pd : ponly rd).
  { intros p q Sp Sq E1 E2 M. apply (law l_rect None (Some all_ips_set) None) in M; [|exact I|exact Pall|exact Sp]. apply (law l_rect None (Some all_ips_set) None); [exact I|exact Pall|exact Sq|]. rewrite <- E2. exact M. }
  (* the part with addresses, and what remains *)
  assert (Part : forall r y, cok r -> ponly r -> cok y -> ponly y -> good_obj y -> (safe y \/ True) -> forall f, (forall z, cok z -> not_all z -> exists l, f z = Some l /\ cubes_of z l) ->
    let d := c_and A r y in let y' := if c_bool A d then c_sub A y d else y in
    cok y' /\ ponly y' /\ good_obj y' /\
    exists rr, (if c_bool A d then rules_of_cubes cl ci single (f d) else Some []) = Some rr /\
      (forall pt, space pt -> cmem pt y -> cmem pt y' \/ exists e, In e rr /\ in_rule e pt) /\ (forall pt, space pt -> cmem pt y' -> cmem pt y) /\
      (forall e pt, In e rr -> space pt -> in_rule e pt -> cmem pt y)).
  { intros r y Kr Pr Ky Py Gy _ f Hf d y'.
    assert (Kd' : cok d) by (apply (law l_and_ok); auto).
    assert (Md : forall pt, space pt -> (cmem pt d <-> cmem pt r /\ cmem pt y)) by (intros pt Sp; apply (law l_and); auto).
    assert (Gd : good_obj d) by (intros pt Sp M; apply Gy; auto; apply (Md pt Sp) in M; tauto).
    assert (Pd' : ponly d) by (apply and_ponly; auto).
    unfold y'. destruct (c_bool A d) eqn:B.
    - apply (bool_some d Kd') in B as (q & Sq & Mq).
      assert (Sf : csafe y d) by (apply (law l_safe_nonempty y d q); auto; apply (Md q Sq) in Mq; tauto).
      assert (Ms : forall pt, space pt -> (cmem pt (c_sub A y d) <-> cmem pt y /\ ~ cmem pt d)) by (intros pt Sp; apply (law l_sub); auto).
      split; [apply (law l_sub_ok); auto|]. split; [apply (sub_ponly y d); auto|]. split; [intros pt Sp M; apply Gy; auto; apply (Ms pt Sp) in M; tauto|].
      destruct (Hf d Kd' (good_not_all d Gd)) as (l & El & Cl). destruct (rules_of_cubes_spec (f d) d l El Cl Pd' Gd) as (rr & Er & R1 & R2). exists rr. split; auto. split; [|split].
      + intros pt Sp M. destruct (law l_dec d pt Kd') as [X|X]; [right; apply R1; auto|left; apply (Ms pt Sp); auto].
      + intros pt Sp M. apply (Ms pt Sp) in M. tauto.
      + intros e pt He Sp X. specialize (R2 e pt He Sp X). apply (Md pt Sp) in R2. tauto.
    - split; auto. split; auto. split; auto. exists []. split; auto. split; [auto|]. split; [auto|]. intros e pt []. }
  destruct (Part rs x Ks Ps K P G (or_intror I) (f_switched F) (w_switched W)) as (K1 & P1 & G1 & r1 & E1 & A1 & B1 & C1).
  set (s := c_and A rs x) in *. set (x1 := if c_bool A s then c_sub A x s else x) in *.
  destruct (Part rd x1 Kd Pd K1 P1 G1 (or_intror I) (f_cubes F) (w_cubes W)) as (K2 & P2 & G2 & r2 & E2 & A2 & B2 & C2).
  set (d := c_and A rd x1) in *. set (x2 := if c_bool A d then c_sub A x1 d else x1) in *.
  assert (E3 : exists r3, (if c_bool A x2 then rules_of_cubes cl ci single (f_minimized F x2) else Some []) = Some r3 /\
    (forall pt, space pt -> cmem pt x2 -> exists e, In e r3 /\ in_rule e pt) /\ (forall e pt, In e r3 -> space pt -> in_rule e pt -> cmem pt x2)).
  { destruct (c_bool A x2) eqn:B.
    - destruct (w_minimized W x2 K2 (good_not_all x2 G2)) as (l & El & Cl). apply (rules_of_cubes_spec (f_minimized F x2) x2 l); auto.
    - exists []. split; auto. split; [intros pt Sp M; destruct (empty_bool x2 pt K2 B Sp M)|intros e pt []]. }
  destruct E3 as (r3 & E3 & A3 & C3). rewrite E1, E2, E3. cbn [bind]. eexists. split; [reflexivity|]. split.
  - intros pt Sp M. destruct (A1 pt Sp M) as [M1|(e & He & X)]; [|exists e; split; auto; apply in_app_iff; auto].
    destruct (A2 pt Sp M1) as [M2|(e & He & X)]; [|exists e; split; auto; apply in_app_iff; right; apply in_app_iff; auto].
    destruct (A3 pt Sp M2) as (e & He & X). exists e. split; auto. apply in_app_iff; right; apply in_app_iff; auto.
  - intros e pt He Sp X. apply in_app_iff in He as [He|He]; [apply (C1 e pt); auto|]. apply B1; auto. apply in_app_iff in He as [He|He]; [apply (C2 e pt); auto|].
    apply B2; auto. apply (C3 e pt); auto.
Qed.

Lemma cs_rules_spec : exists r, cs_rules cl ci A Q F single pp cont = Some r /\
  (forall pt, space pt -> cmem pt pp -> exists e, In e r /\ in_rule e pt) /\
  (forall e pt, In e r -> space pt -> in_rule e pt -> cmem pt pp \/ cmem pt cont \/ self_pt pt).
Proof using L QL W Hpeers Kp Kc Pp Pc Gp Gc Np.
  destruct covered_spec as (K0 & P0 & G0 & S0 & T0). unfold cs_rules.
  destruct basic_grouping_spec as (found & [rest pairs] & -> & (K & S & P & Ip & Bp) & Sf & Cf). cbn [bind fst snd] in *.
  destruct (pairs_spec single (map (fun p => (BNs (fst p), BNs (snd p))) (final_pairs found))) as (r1 & -> & M1).
  { intros b Hb. apply in_map_iff in Hb as (g & <- & _). split; exact I. }
  cbn [bind]. destruct (rules_of_props_spec rest K S P) as (r2 & -> & A2 & B2); [intros pt Sp M; apply Gp; auto|]. cbn [bind].
  destruct (pairs_spec single pairs) as (r3 & -> & M3); [intros b Hb; destruct (Bp b Hb) as (X1 & X2 & _); auto|]. cbn [bind].
  eexists. split; [reflexivity|]. split.
  - intros pt Sp M. assert (X : (exists e, In e r1 /\ in_rule e pt) \/ (exists e, In e r2 /\ in_rule e pt) \/ (exists e, In e r3 /\ in_rule e pt)).
    { destruct (Cf pt Sp M) as [X|[X|X]]; cbn [fst snd] in X.
      - left. apply M1. apply final_pairs_pair. exact X.
      - right; left. apply A2; auto.
      - right; right. apply M3. exact X. }
    destruct X as [(e & He & X)|[(e & He & X)|(e & He & X)]]; exists e; (split; [|exact X]); rewrite !in_app_iff; auto.
  - intros e pt He Sp X. apply T0; auto. rewrite !in_app_iff in He. destruct He as [He|[He|He]].
    + assert (Y : exists e, In e r1 /\ in_rule e pt) by (exists e; auto). apply M1 in Y. apply final_pairs_pair in Y as (sd & Hs & Hp). apply (Sf sd pt); auto.
    + apply S0; auto. apply Ip; auto. apply (B2 e pt); auto.
    + assert (Y : exists e, In e r3 /\ in_rule e pt) by (exists e; auto). apply M3 in Y as (b & Hb & Y). destruct (Bp b Hb) as (_ & _ & Z). apply Z; auto.
Qed.
End OneSet.

(** ** All connection sets *)
Definition same (x y : C) : Prop := forall pt, space pt -> (cmem pt x <-> cmem pt y).
Definition below (x y : C) : Prop := forall pt, space pt -> cmem pt x -> cmem pt y.
Lemma merge_spec : forall {X} (key val : X -> C) l, (forall x, In x l -> cok (key x) /\ cok (val x)) ->
  let d := fold_left (fun d x => update (c_eqb A) (key x) (c_empty A) (fun y => c_or A y (val x)) d) l [] in
  (forall e, In e d -> (exists x, In x l /\ fst e = key x) /\ cok (snd e) /\ (exists x, In x l /\ below (val x) (snd e)) /\
     (forall pt, space pt -> cmem pt (snd e) -> exists x, In x l /\ cmem pt (val x) /\ same (key x) (fst e) /\ below (val x) (snd e))) /\
  (forall x, In x l -> exists e, In e d /\ same (key x) (fst e) /\ below (val x) (snd e)).
Proof using L.
  intros X key val l Hl.
  assert (G : forall l d (T : X -> Prop), (forall x, T x \/ In x l -> cok (key x) /\ cok (val x)) ->
    (forall e, In e d -> (exists x, T x /\ fst e = key x) /\ cok (snd e) /\ (exists x, T x /\ below (val x) (snd e)) /\
       (forall pt, space pt -> cmem pt (snd e) -> exists x, T x /\ cmem pt (val x) /\ same (key x) (fst e) /\ below (val x) (snd e))) ->
    (forall x, T x -> exists e, In e d /\ same (key x) (fst e) /\ below (val x) (snd e)) ->
    let d' := fold_left (fun d x => update (c_eqb A) (key x) (c_empty A) (fun y => c_or A y (val x)) d) l d in
    (forall e, In e d' -> (exists x, (T x \/ In x l) /\ fst e = key x) /\ cok (snd e) /\ (exists x, (T x \/ In x l) /\ below (val x) (snd e)) /\
       (forall pt, space pt -> cmem pt (snd e) -> exists x, (T x \/ In x l) /\ cmem pt (val x) /\ same (key x) (fst e) /\ below (val x) (snd e))) /\
    (forall x, T x \/ In x l -> exists e, In e d' /\ same (key x) (fst e) /\ below (val x) (snd e))).
  { clear l Hl. induction l as [|b l IH]; intros d T Hok H1 H2; cbn [fold_left] in *.
    - split; [|intros x [Tx|[]]; auto]. intros e He. destruct (H1 e He) as ((x & Tx & E) & K & (y & Ty & B) & M).
      split; [exists x; auto|]. split; auto. split; [exists y; auto|]. intros pt Sp Mp. destruct (M pt Sp Mp) as (z & Tz & R). exists z. auto.
    - destruct (Hok b) as [Kb Vb]; [right; left; auto|].
      destruct (IH (update (c_eqb A) (key b) (c_empty A) (fun y => c_or A y (val b)) d) (fun x => T x \/ x = b)) as (I1 & I2).
      + intros x [[Tx| ->]|Hx]; [apply Hok; left; auto|split; auto|apply Hok; right; right; auto].
      + intros e He. destruct (update_cases (c_eqb A) (c_empty A) (fun y => c_or A y (val b)) (key b) d e He) as [Y|[(v & E & Y & Es)|Y]].
        * destruct (H1 e Y) as ((x & Tx & E) & K & (y & Ty & B) & M). split; [exists x; auto|]. split; auto. split; [exists y; auto|].
          intros pt Sp Mp. destruct (M pt Sp Mp) as (z & Tz & R). exists z. auto.
        * destruct e as [ek ev]. cbn [fst snd] in *. destruct (H1 _ Y) as ((x & Tx & Ek) & K & (y & Ty & B) & M). cbn [fst snd] in *.
          assert (Ke : cok ek) by (rewrite Ek; apply Hok; auto).
          assert (Mo : forall pt, space pt -> (cmem pt ev <-> cmem pt v \/ cmem pt (val b))) by (intros pt Sp; rewrite Es; apply (law l_or); auto).
          assert (Sb : same (key b) ek) by (exact (law l_eqb (key b) ek Kb Ke E)).
          assert (Bb : below (val b) ev) by (intros pt Sp Mp; apply (Mo pt Sp); auto).
          assert (Bv : below v ev) by (intros pt Sp Mp; apply (Mo pt Sp); auto).
          split; [exists x; auto|]. split; [rewrite Es; apply (law l_or_ok); auto|]. split; [exists b; auto|].
          intros pt Sp Mp. apply (Mo pt Sp) in Mp as [Mp|Mp].
          -- destruct (M pt Sp Mp) as (z & Tz & R1 & R2 & R3). exists z. split; auto. split; auto. split; auto. intros q Sq Mq. apply Bv; auto.
          -- exists b. auto.
        * subst e. cbn [fst snd].
          assert (Mo : forall pt, space pt -> (cmem pt (c_or A (c_empty A) (val b)) <-> cmem pt (val b))).
          { intros pt Sp. refine (iff_trans (law l_or _ _ pt (law l_empty_ok) Vb Sp) _). split; [intros [Y|Y]; [destruct (law l_empty pt Y)|exact Y]|auto]. }
          assert (Bb : below (val b) (c_or A (c_empty A) (val b))) by (intros pt Sp Mp; apply (Mo pt Sp); auto).
          split; [exists b; auto|]. split; [apply (law l_or_ok); auto; apply (law l_empty_ok)|]. split; [exists b; auto|].
          intros pt Sp Mp. apply (Mo pt Sp) in Mp. exists b. split; auto. split; auto. split; [intros q Sq; tauto|auto].
      + intros x [Tx| ->].
        * destruct (H2 x Tx) as ([gk gv] & Hg & Sk & Bv). cbn [fst snd] in *. destruct (update_keeps (c_eqb A) (c_empty A) (fun y => c_or A y (val b)) (key b) d gk gv Hg) as [Y|[_ Y]].
          -- exists (gk, gv). auto.
          -- exists (gk, c_or A gv (val b)). split; auto. cbn [fst snd]. split; auto. intros pt Sp Mp.
             destruct (H1 _ Hg) as (_ & Kg & _). apply (law l_or gv (val b) pt); auto.
        * destruct (update_has (c_eqb A) (c_empty A) (fun y => c_or A y (val b)) (key b) d) as (gk & gv & Hg & Hc). exists (gk, c_or A gv (val b)). split; auto. cbn [fst snd].
          assert (Kg : cok gv /\ same (key b) gk).
          { destruct Hc as [[-> ->]|[E Hin]]; [split; [apply (law l_empty_ok)|intros q Sq; tauto]|]. destruct (H1 _ Hin) as ((x & Tx & Ek) & K & _). cbn [fst snd] in *. split; auto.
            assert (Kk : cok gk) by (rewrite Ek; apply Hok; auto). exact (law l_eqb (key b) gk Kb Kk E). }
          split; [apply Kg|]. intros pt Sp Mp. apply (law l_or gv (val b) pt); auto. apply Kg.
      + assert (Sw : forall x, (T x \/ x = b) \/ In x l <-> T x \/ b = x \/ In x l) by (intros x; split; [intros [[?| ->]|?]|intros [?|[<-|?]]]; auto).
        split.
        * intros e He. destruct (I1 e He) as ((x & Tx & E) & K & (y & Ty & B) & M). apply Sw in Tx. apply Sw in Ty. split; [exists x; auto|]. split; auto. split; [exists y; auto|].
          intros pt Sp Mp. destruct (M pt Sp Mp) as (z & Tz & R). apply Sw in Tz. exists z. auto.
        * intros x Hx. apply I2. apply Sw. exact Hx. }
  destruct (G l [] (fun _ => False)) as (G1 & G2); [intros x [[]|Hx]; auto|intros e []|intros x []|]. cbv zeta. split.
  - intros e He. destruct (G1 e He) as ((x & [[]|Tx] & E) & K & (y & [[]|Ty] & B) & M). split; [exists x; auto|]. split; auto. split; [exists y; auto|].
    intros pt Sp Mp. destruct (M pt Sp Mp) as (z & [[]|Tz] & R). exists z. auto.
  - intros x Hx. apply G2. auto.
Qed.
Lemma containing_spec : forall all props, cok props -> (forall e, In e all -> cok (fst e) /\ cok (snd e)) ->
  cok (containing_peers A all props) /\
  (forall pt, space pt -> cmem pt (containing_peers A all props) -> exists o, In o all /\ below props (fst o) /\ cmem pt (snd o) /\ below (snd o) (containing_peers A all props)).
Proof using L.
  intros all props Kp Hall. unfold containing_peers.
  assert (G : forall l acc (T : C * C -> Prop), (forall e, In e l -> cok (fst e) /\ cok (snd e)) -> cok acc ->
    (forall pt, space pt -> cmem pt acc -> exists o, T o /\ below props (fst o) /\ cmem pt (snd o) /\ below (snd o) acc) ->
    let r := fold_left (fun acc o => if negb (c_eqb A (fst o) props) && c_cont A props (fst o) then c_or A acc (snd o) else acc) l acc in
    cok r /\ below acc r /\ (forall pt, space pt -> cmem pt r -> exists o, (T o \/ In o l) /\ below props (fst o) /\ cmem pt (snd o) /\ below (snd o) r)).
  { induction l as [|a l IH]; intros acc T Hl K M; cbn [fold_left] in *.
    - split; auto. split; [intros pt Sp X; exact X|]. intros pt Sp X. destruct (M pt Sp X) as (o & To & R). exists o. auto.
    - destruct (Hl a (or_introl eq_refl)) as [K1 K2].
      set (acc' := if negb (c_eqb A (fst a) props) && c_cont A props (fst a) then c_or A acc (snd a) else acc).
      assert (S : cok acc' /\ below acc acc' /\ forall pt, space pt -> cmem pt acc' -> exists o, (T o \/ o = a) /\ below props (fst o) /\ cmem pt (snd o) /\ below (snd o) acc').
      { unfold acc'. destruct (negb (c_eqb A (fst a) props) && c_cont A props (fst a)) eqn:E.
        - apply andb_true_iff in E as [_ E].
          assert (Mo : forall pt, space pt -> (cmem pt (c_or A acc (snd a)) <-> cmem pt acc \/ cmem pt (snd a))) by (intros pt Sp; apply (law l_or); auto).
          split; [apply (law l_or_ok); auto|]. split; [intros pt Sp X; apply (Mo pt Sp); auto|]. intros pt Sp X. apply (Mo pt Sp) in X as [X|X].
          + destruct (M pt Sp X) as (o & To & R1 & R2 & R3). exists o. split; auto. split; auto. split; auto. intros q Sq Mq. apply (Mo q Sq). left. apply R3; auto.
          + exists a. split; auto. split; [exact (proj1 (law l_cont props (fst a) Kp K1) E)|]. split; auto. intros q Sq Mq. apply (Mo q Sq). auto.
        - split; auto. split; [intros pt Sp X; exact X|]. intros pt Sp X. destruct (M pt Sp X) as (o & To & R). exists o. auto. }
      destruct S as (S1 & S2 & S3). destruct (IH acc' (fun o => T o \/ o = a)) as (I1 & I2 & I3); [intros e He; apply Hl; right; auto|exact S1|exact S3|].
      split; auto. split; [intros pt Sp X; apply I2; auto|]. intros pt Sp X. destruct (I3 pt Sp X) as (o & To & R). exists o. split; [|exact R]. destruct To as [[To| ->]|To]; auto; right; [left|right]; auto. }
  destruct (G all (c_empty A) (fun _ => False)) as (G1 & _ & G3); [exact Hall|apply (law l_empty_ok)|intros pt _ X; destruct (law l_empty pt X)|].
  split; auto. intros pt Sp X. destruct (G3 pt Sp X) as (o & [[]|To] & R). exists o. auto.
Qed.
Lemma ponly_of_parts : forall x, (forall pt, space pt -> cmem pt x -> exists y, cmem pt y /\ ponly y /\ below y x) -> ponly x.
Proof using.
  intros x H p q Sp Sq E1 E2 M. destruct (H p Sp M) as (y & My & Py & By). apply By; auto. apply (Py p q); auto.
Qed.
Lemma good_of_ends : forall x h, good_obj h -> (forall pt, space pt -> cmem pt x -> exists q, space q /\ cmem q h /\ src q = src pt /\ dst q = dst pt) -> good_obj x.
Proof using. intros x h G H pt Sp M. destruct (H pt Sp M) as (q & Sq & Mq & E1 & E2). specialize (G q Sq Mq). unfold good in *. rewrite <- E1, <- E2. exact G. Qed.

Lemma minimized_spec : forall single restr h, cok h -> good_obj h ->
  exists r, minimized_rules cl ci A Q F single restr h = Some r /\ (forall p l, In (p, l) r -> cok p) /\
    (forall p l e pt, In (p, l) r -> In e l -> space pt -> opt (eq (tcp pt)) restr -> cmem pt p -> in_rule e pt -> cmem pt h \/ self_pt pt) /\
    (forall pt, space pt -> nice pt -> cmem pt h -> exists p l e, In (p, l) r /\ In e l /\ cmem pt p /\ in_rule e pt).
Proof using L QL W Hpeers.
  intros single restr h Kh Gh. unfold minimized_rules. cbv zeta. set (cubes := f_split F restr h).
  pose proof (fun p c H => w_split_ok W restr h p c Kh H) as Ok. pose proof (fun p c pt H => w_split_sound W restr h p c pt Kh H) as Snd. pose proof (fun pt => w_split_complete W restr h pt Kh) as Cpl. fold cubes in Ok, Snd, Cpl.
  destruct (merge_spec (X := C * C) fst snd cubes) as (A1 & A2); [intros [p c] H; destruct (Ok p c H) as (K1 & K2 & _); auto|]. fold (peers_to_props A cubes) in A1, A2. set (d1 := peers_to_props A cubes) in *.
  assert (Ok1 : forall e, In e d1 -> cok (fst e) /\ cok (snd e) /\ ponly (fst e) /\ good_obj (fst e) /\ some_of (fst e)).
  { intros e He. destruct (A1 e He) as (([p c] & Hx & E) & K & _). cbn [fst] in E. destruct (Ok p c Hx) as (K1 & K2 & P & N & En). rewrite E. split; auto. split; auto. split; auto. split; auto. apply (good_of_ends p h); auto. }
  destruct (merge_spec (X := C * C) snd fst d1) as (B1 & B2); [intros e He; destruct (Ok1 e He) as (K1 & K2 & _); auto|]. fold (props_to_peers A d1) in B1, B2. set (all := props_to_peers A d1) in *.
  assert (Ok2 : forall e, In e all -> cok (fst e) /\ cok (snd e) /\ ponly (snd e) /\ good_obj (snd e) /\ some_of (snd e)).
  { intros e He. destruct (B1 e He) as ((x & Hx & E) & K & (y & Hy & B) & M). destruct (Ok1 x Hx) as (K1 & K2 & _). rewrite E. split; auto. split; auto. split; [|split].
    - apply ponly_of_parts. intros pt Sp Mp. destruct (M pt Sp Mp) as (z & Hz & Mz & _ & Bz). exists (fst z). split; auto. split; auto. apply (Ok1 z Hz).
    - intros pt Sp Mp. destruct (M pt Sp Mp) as (z & Hz & Mz & _ & Bz). destruct (Ok1 z Hz) as (_ & _ & _ & G & _). apply G; auto.
    - destruct (Ok1 y Hy) as (_ & _ & _ & _ & pt & Sp & Mp). exists pt. split; auto. }
  assert (Snd2 : forall e pt, In e all -> space pt -> opt (eq (tcp pt)) restr -> cmem pt (fst e) -> cmem pt (snd e) -> cmem pt h).
  { intros e pt He Sp Ht M1 M2. destruct (B1 e He) as (_ & _ & _ & M). destruct (M pt Sp M2) as (x & Hx & Mx & Sx & _). apply (Sx pt Sp) in M1.
    destruct (A1 x Hx) as (_ & _ & _ & N). destruct (N pt Sp M1) as ([p c] & Hp & Mp & Sp' & _). cbn [fst snd] in *. apply (Sp' pt Sp) in Mx. apply (Snd p c pt); auto. }
  assert (Cpl2 : forall pt, space pt -> nice pt -> cmem pt h -> exists e, In e all /\ cmem pt (fst e) /\ cmem pt (snd e)).
  { intros pt Sp Nc M. destruct (Cpl pt Sp Nc M) as (p & c & Hp & M1 & M2). destruct (A2 (p, c) Hp) as (x & Hx & Sx & Bx). cbn [fst snd] in *.
    destruct (B2 x Hx) as (e & He & Se & Be). exists e. split; auto. split; [apply (Se pt Sp); apply Bx; auto|]. apply Be; auto. apply (Sx pt Sp); auto. }
  assert (Each : forall e, In e all -> exists r, cs_rules cl ci A Q F single (snd e) (containing_peers A all (fst e)) = Some r /\
    (forall pt, space pt -> cmem pt (snd e) -> exists x, In x r /\ in_rule x pt) /\
    (forall x pt, In x r -> space pt -> opt (eq (tcp pt)) restr -> cmem pt (fst e) -> in_rule x pt -> cmem pt h \/ self_pt pt)).
  { intros e He. destruct (Ok2 e He) as (K1 & K2 & P & G & N).
    destruct (containing_spec all (fst e) K1) as (Kc & Mc); [intros o Ho; destruct (Ok2 o Ho) as (? & ? & _); auto|].
    destruct (cs_rules_spec single (snd e) (containing_peers A all (fst e)) K2 Kc P) as (r & Er & R1 & R2); auto.
    - apply ponly_of_parts. intros pt Sp M. destruct (Mc pt Sp M) as (o & Ho & _ & Mo & Bo). exists (snd o). split; auto. split; auto. apply (Ok2 o Ho).
    - intros pt Sp M. destruct (Mc pt Sp M) as (o & Ho & _ & Mo & _). destruct (Ok2 o Ho) as (_ & _ & _ & Go & _). apply Go; auto.
    - exists r. split; auto. split; auto. intros x pt Hx Sp Ht Mp Hr. destruct (R2 x pt Hx Sp Hr) as [M|[M|M]]; [left; apply (Snd2 e pt); auto| |auto].
      destruct (Mc pt Sp M) as (o & Ho & Bo & Mo & _). left. apply (Snd2 o pt); auto. }
  clearbody all. clear A1 A2 Ok1 B1 B2 d1.
  assert (R : forall l, (forall e, In e l -> In e all) -> exists r,
    mapM (fun e => if c_bool A (fst e) then bind (cs_rules cl ci A Q F single (snd e) (containing_peers A all (fst e))) (fun r => Some [(fst e, r)]) else Some []) l = Some r /\
    (forall p x, In (p, x) (List.concat r) -> exists e, In e l /\ fst e = p /\ cs_rules cl ci A Q F single (snd e) (containing_peers A all (fst e)) = Some x) /\
    (forall e, In e l -> c_bool A (fst e) = true -> exists x, In (fst e, x) (List.concat r) /\ cs_rules cl ci A Q F single (snd e) (containing_peers A all (fst e)) = Some x)).
  { induction l as [|e l IH]; intros Hl; cbn [mapM]; [exists []; split; auto; split; [intros p x []|intros e []]|].
    destruct IH as (r & Er & R1 & R2); [intros q Hq; apply Hl; right; auto|]. destruct (Each e (Hl e (or_introl eq_refl))) as (re & Ee & _).
    destruct (c_bool A (fst e)) eqn:B.
    - rewrite Ee. cbn [bind]. rewrite Er. cbn [bind]. eexists. split; [reflexivity|]. split.
      + intros p x H. cbn [List.concat app] in H. destruct H as [H|H]; [injection H as <- <-; exists e; split; [left|]; auto|]. destruct (R1 p x H) as (q & Hq & Rq). exists q. split; [right; auto|auto].
      + intros q [<-|Hq] Bq; [exists re; split; [left; auto|auto]|]. destruct (R2 q Hq Bq) as (x & Hx & Ex). exists x. split; [right; auto|auto].
    - cbn [bind]. rewrite Er. cbn [bind]. eexists. split; [reflexivity|]. split.
      + intros p x H. cbn [List.concat app] in H. destruct (R1 p x H) as (q & Hq & Rq). exists q. split; [right; auto|auto].
      + intros q [<-|Hq] Bq; [congruence|]. destruct (R2 q Hq Bq) as (x & Hx & Ex). exists x. auto. }
  destruct (R all (fun e H => H)) as (r & Er & R1 & R2). rewrite Er. cbn [bind]. eexists. split; [reflexivity|]. split; [|split].
  - intros p l H. destruct (R1 p l H) as (e & He & <- & _). apply (Ok2 e He).
  - intros p l x pt Hp Hx Sp Ht Mp Hr. destruct (R1 p l Hp) as (e & He & <- & Ee). destruct (Each e He) as (re & Ee' & _ & S2). rewrite Ee in Ee'. injection Ee' as <-. apply (S2 x pt); auto.
  - intros pt Sp Nc M. destruct (Cpl2 pt Sp Nc M) as (e & He & M1 & M2). destruct (Ok2 e He) as (K1 & _).
    destruct (R2 e He (bool_mem (fst e) pt K1 Sp M1)) as (x & Hx & Ex). destruct (Each e He) as (re & Ee' & S1 & _). rewrite Ex in Ee'. injection Ee' as <-.
    destruct (S1 pt Sp M2) as (y & Hy & Ry). exists (fst e), x, y. auto.
Qed.
End FW.
