(** * What the queries answer, for abstract connection sets. *)
From Coq Require Import ZArith List Bool Arith Lia String.
From Verif Require Import IntervalModel IntervalFacts PortProtoModel PeerModel PeerFacts PeerSetFacts PolicyModel
                          PolicyLaws PolicyFacts LayerFacts OrderFacts QueryModel QueryFacts.
Import ListNotations.
Local Open Scope nat_scope.

Section Specs.
Context {C Pt : Type} (A : cops C) (Q : qops C) (src dst : Pt -> point) (tcp : Pt -> bool) (space : Pt -> Prop)
        (cmem : Pt -> C -> Prop) (cok : C -> Prop) (csafe : C -> C -> Prop) (vis : list peer) (put : Pt -> Pt -> Pt)
        (L : claws A src dst tcp space cmem cok csafe vis) (QL : qlaws A Q src dst tcp space cmem cok csafe vis put)
        (NB : forall p, In p vis -> is_block p = false)
        (rid : @rule C -> @rule C -> bool).
Local Notation law f := (f _ _ _ _ _ _ _ _ _ L).
Local Notation qlaw f := (f _ _ _ _ _ _ _ _ _ _ _ QL).
Local Notation policy := (@policy C).
Local Notation config := (@config C).
Local Notation solid := (solid cok csafe).
Local Notation within := (within src dst space cmem).
Local Notation stays := (stays src dst space cmem).
Local Notation filter_spec := (filter_conns_spec A Q _ _ _ _ _ _ _ _ _ L QL).
Local Notation rel ex6 pt := (relevant ex6 (src pt) (dst pt)).

Definition cfg_ok (g : config) : Prop := container vis (g_peers g) /\ layers_ok A cok csafe vis (lays (g_pols g)) /\
  forall n pols, In (n, pols) (lays (g_pols g)) -> stays (g_peers g) pols.
Definition allows (g : config) (pt : Pt) : Prop := cmem pt (all_of A (g_peers g) (lays (g_pols g))).
Definition explicitly (g : config) (pt : Pt) : Prop := cmem pt (explicit_of A (g_peers g) (lays (g_pols g))).
Definition settled (g : config) : Prop := (exists pt, space pt /\ allows g pt) \/ one_layer (g_peers g) (lays (g_pols g)).
Definition settled_explicit (g : config) : Prop :=
  ~ has_hep (g_peers g) /\ ((exists pt, space pt /\ explicitly g pt) \/ one_layer (g_peers g) (lays (g_pols g))).

(** A set of connections of one configuration that can be filtered. *)
Definition usable (g : config) (x : C) : Prop := container vis (g_peers g) /\ cok x /\ within (g_peers g) x /\ solid x.

Lemma ip_rect_ok : forall ps, container vis ps -> cok (ip_rect A ps).
Proof using L.
  intros ps HC. destruct (all_dns_spec vis ps HC) as [D1 D2]. destruct (all_ips_set_spec vis) as [W1 W2].
  apply (law l_rect_ok); cbn [opt]; auto. apply pok_union; auto.
Qed.
Lemma all_usable : forall g, cfg_ok g -> settled g -> usable g (all_of A (g_peers g) (lays (g_pols g))).
Proof using L QL.
  intros g (H1 & H2 & H3) S. split; auto. destruct (all_within A src dst tcp space cmem cok csafe vis L _ H1 _ H2 H3) as [K W].
  split; auto. split; auto. apply (all_solid A Q src dst tcp space cmem cok csafe vis put L QL); auto.
Qed.
Lemma explicit_usable : forall g, cfg_ok g -> settled_explicit g -> usable g (explicit_of A (g_peers g) (lays (g_pols g))).
Proof using L QL.
  intros g (H1 & H2 & H3) [N S]. split; auto. destruct (explicit_spec A src dst tcp space cmem cok csafe vis L _ H1 _ H2 H3 N) as (K & W & _).
  split; auto. split; auto. apply (explicit_solid A Q src dst tcp space cmem cok csafe vis put L QL); auto.
Qed.

(** ** The two filtered sets *)
Record filtered (ex6 : bool) (x1 x2 y1 y2 : C) : Prop := Filtered {
  fl_ok1 : cok y1; fl_ok2 : cok y2; fl_solid1 : solid y1; fl_solid2 : solid y2;
  fl_mem1 : forall pt, space pt -> (cmem pt y1 <-> cmem pt x1 /\ rel ex6 pt);
  fl_mem2 : forall pt, space pt -> (cmem pt y2 <-> cmem pt x2 /\ rel ex6 pt);
  fl_eqb : ex6 = true -> (forall pt, space pt -> (cmem pt y1 <-> cmem pt y2)) -> c_eqb A y1 y2 = true
}.
Lemma filtered_sets : forall ex6 g1 g2 x1 x2, usable g1 x1 -> usable g2 x2 ->
  filtered ex6 x1 x2 (fst (filter_conns A Q ex6 g1 g2 x1 x2)) (snd (filter_conns A Q ex6 g1 g2 x1 x2)).
Proof using L QL NB.
  intros ex6 g1 g2 x1 x2 (C1 & K1 & W1 & S1) (C2 & K2 & W2 & S2).
  destruct (filter_spec ex6 g1 g2 x1 x2 C1 C2 NB K1 K2 W1 W2 (S1 _ (ip_rect_ok _ C1)) (S2 _ (ip_rect_ok _ C2))) as ((O1 & O2) & (P1 & P2) & M1 & M2 & E).
  constructor; auto.
Qed.

(** ** Equivalence *)
(** The answer of a comparison of what two configurations allow. *)
Definition compared (ex6 : bool) (P1 P2 : Pt -> Prop) (a : @answer C) : Prop :=
  a_skip a = false /\ a_num a = bz (negb (a_bool a)) /\
  (a_bool a = true -> (forall pt, space pt -> rel ex6 pt -> (P1 pt <-> P2 pt)) /\ a_expl a = []) /\
  (ex6 = true -> (forall pt, space pt -> rel ex6 pt -> (P1 pt <-> P2 pt)) -> a_bool a = true) /\
  (a_bool a = false -> exists d1 d2, a_expl a = [d1; d2] /\ cok d1 /\ cok d2 /\
     forall pt, space pt -> (cmem pt d1 <-> rel ex6 pt /\ P1 pt /\ ~ P2 pt) /\ (cmem pt d2 <-> rel ex6 pt /\ P2 pt /\ ~ P1 pt)).

Lemma compare_sets : forall ex6 g1 g2 x1 x2, usable g1 x1 -> usable g2 x2 ->
  compared ex6 (fun pt => cmem pt x1) (fun pt => cmem pt x2)
    (match filter_conns A Q ex6 g1 g2 x1 x2 with
     | (x1, x2) => if c_eqb A x1 x2 then Answer true 0 false [] else Answer false 1 false [c_sub A x1 x2; c_sub A x2 x1] end).
Proof using L QL NB.
  intros ex6 g1 g2 x1 x2 U1 U2. pose proof (filtered_sets ex6 g1 g2 x1 x2 U1 U2) as [K1 K2 S1 S2 M1 M2 E].
  destruct (filter_conns A Q ex6 g1 g2 x1 x2) as [y1 y2]. cbn [fst snd] in *.
  assert (D1 : forall pt, cmem pt x1 \/ ~ cmem pt x1) by (intros pt; apply (law l_dec); apply U1).
  destruct (c_eqb A y1 y2) eqn:Eq; unfold compared; cbn [a_bool a_num a_skip a_expl negb bz].
  - split; auto. split; auto. split; [|split; [auto|discriminate]]. intros _. split; auto. intros pt Sp R.
    pose proof (law l_eqb y1 y2 K1 K2 Eq pt Sp) as H. rewrite M1, M2 in H by auto. tauto.
  - split; auto. split; auto. split; [discriminate|]. split.
    + intros X H. apply E; auto. intros pt Sp. rewrite M1, M2 by auto. specialize (H pt Sp). tauto.
    + intros _. exists (c_sub A y1 y2), (c_sub A y2 y1). split; auto. split; [apply (law l_sub_ok); auto|]. split; [apply (law l_sub_ok); auto|].
      intros pt Sp. rewrite !(law l_sub), M1, M2 by auto. tauto.
Qed.

Definition ok_on (on : option lname) (g : config) : Prop := match on with None => settled g | Some _ => exists x, pod (g_peers g) x end.
Definition allows_on (on : option lname) (g : config) (pt : Pt) : Prop :=
  match on with None => allows g pt
  | Some n => layer_allows src dst tcp cmem (g_peers g) n (match lget (lays (g_pols g)) n with Some l => l | None => [] end) pt end.

Lemma lget_some_In : forall (ls : @layers C) n pols, lget ls n = Some pols -> In (n, pols) ls.
Proof using.
  intros ls n pols. unfold lget. destruct (find _ ls) as [[m q]|] eqn:F; [|discriminate]. cbn [snd]. intros E. injection E as <-.
  apply find_some in F as [F1 F2]. cbn [fst] in F2. apply lname_eqb_eq in F2. subst. exact F1.
Qed.
Lemma on_usable : forall on g, cfg_ok g -> ok_on on g -> usable g (all_conns_of A g on) /\
  forall pt, space pt -> (cmem pt (all_conns_of A g on) <-> allows_on on g pt).
Proof using L QL.
  intros [n|] g K S.
  - destruct K as (H1 & H2 & H3). cbn [ok_on allows_on] in *.
    assert (E : all_conns_of A g (Some n) = all_allowed (layer_conns A n (g_peers g) (match lget (lays (g_pols g)) n with Some l => l | None => [] end) only_all_allowed)).
    { unfold all_conns_of, layer_conns_of, config_layer_conns. destruct (lget (lays (g_pols g)) n); reflexivity. }
    assert (X : forall ing, layer_ok A cok csafe vis n ing (match lget (lays (g_pols g)) n with Some l => l | None => [] end)).
    { intros ing. destruct (lget (lays (g_pols g)) n) as [l|] eqn:El; [|apply layer_ok_nil].
      apply lget_some_In in El. destruct ing; apply (H2 n l El). }
    assert (Y : stays (g_peers g) (match lget (lays (g_pols g)) n with Some l => l | None => [] end)).
    { destruct (lget (lays (g_pols g)) n) as [l|] eqn:El; [|apply stays_nil]. apply lget_some_In in El. apply (H3 n l El). }
    rewrite E. set (pols := match lget (lays (g_pols g)) n with Some l => l | None => [] end) in *.
    destruct (layer_all_spec A src dst tcp space cmem cok csafe vis L _ H1 n pols (X true) (X false) Y) as (K & W & M).
    split; auto. split; auto. split; auto. split; auto.
    apply (layer_solid A Q src dst tcp space cmem cok csafe vis put L QL); auto.
  - split; [|intros pt Sp; reflexivity]. apply (all_usable g K S).
Qed.

Lemma compared_ext : forall ex6 (P1 P2 R1 R2 : Pt -> Prop) a, (forall pt, space pt -> (P1 pt <-> R1 pt)) -> (forall pt, space pt -> (P2 pt <-> R2 pt)) ->
  compared ex6 P1 P2 a -> compared ex6 R1 R2 a.
Proof using.
  intros ex6 P1 P2 R1 R2 a E1 E2 (H1 & H2 & H3 & H4 & H5). split; auto. split; auto. split; [|split].
  - intros X. destruct (H3 X) as [Y Z]. split; auto. intros pt Sp Rl. rewrite <- E1, <- E2 by auto. auto.
  - intros X Y. apply H4; auto. intros pt Sp Rl. rewrite E1, E2 by auto. auto.
  - intros X. destruct (H5 X) as (d1 & d2 & D1 & D2 & D3 & D4). exists d1, d2. split; auto. split; auto. split; auto.
    intros pt Sp. destruct (D4 pt Sp) as [-> ->]. rewrite (E1 pt), (E2 pt) by auto. tauto.
Qed.
Lemma check_equivalence_spec : forall h6 flag g1 g2 on, cfg_ok g1 -> cfg_ok g2 -> ok_on on g1 -> ok_on on g2 ->
  compared (excl h6 flag g1 g2) (allows_on on g1) (allows_on on g2) (check_equivalence A Q h6 flag g1 g2 on).
Proof using L QL NB.
  intros h6 flag g1 g2 on K1 K2 S1 S2. destruct (on_usable on g1 K1 S1) as [U1 M1]. destruct (on_usable on g2 K2 S2) as [U2 M2].
  unfold check_equivalence. apply compared_ext with (2 := M2) (1 := M1). apply compare_sets; auto.
Qed.

(** ** Equal policies *)
Local Notation alike := (alike space cmem).
Definition same_layers (R : policy -> policy -> Prop) (ls1 ls2 : @layers C) : Prop :=
  Forall2 (fun l1 l2 => fst l1 = fst l2 /\ Forall2 R (snd l1) (snd l2)) ls1 ls2.
(** Policies of equal kind that are equal have the same place in the order. *)
Definition same_pol (p q : policy) : Prop := p_kind p = p_kind q /\ policy_eqb A rid p q = true.

Lemma same_pol_name : forall p q, same_pol p q -> full_name p = full_name q.
Proof using.
  intros p q [_ H]. unfold policy_eqb in H. apply andb_true_iff in H as [H _]. apply andb_true_iff in H as [_ H].
  repeat (apply andb_true_iff in H as [H ?]). apply String.eqb_eq in H.
  match goal with X : String.eqb (p_ns p) _ = true |- _ => apply String.eqb_eq in X; rename X into E end.
  unfold full_name. rewrite H, E. reflexivity.
Qed.
Lemma same_pol_lt : forall p q p' q', same_pol p q -> same_pol p' q' -> policy_lt p p' = policy_lt q q'.
Proof using.
  assert (AE : forall a b, action_eqb a b = true -> a = b) by (intros [] []; cbn; auto; discriminate).
  assert (OE : forall a b, ord_eqb a b = true -> a = b).
  { intros [x|] [y|]; cbn [ord_eqb]; intros H; try discriminate; auto. apply Z.eqb_eq in H. congruence. }
  assert (X : forall p q, same_pol p q -> class_of (p_kind p) = class_of (p_kind q) /\ get_order p = get_order q /\
                          (class_of (p_kind p) = CIstioAP -> p_action p = p_action q)).
  { intros p q [K H]. rewrite K. split; auto. unfold policy_eqb in H. rewrite <- K in *. apply andb_true_iff in H as [_ H].
    unfold get_order. rewrite <- K. destruct (class_of (p_kind p)); split; auto; try discriminate. }
  intros p q p' q' H1 H2. destruct (X _ _ H1) as (A1 & A2 & A3). destruct (X _ _ H2) as (B1 & B2 & B3).
  unfold policy_lt. rewrite <- A1, <- B1, A2, B2. destruct (class_of (p_kind p)); auto. rewrite A3 by auto. reflexivity.
Qed.
Lemma same_bisect : forall fuel l m p q low high, Forall2 same_pol l m -> same_pol p q -> bisect fuel l p low high = bisect fuel m q low high.
Proof using.
  assert (N : forall l m i, Forall2 same_pol l m -> match nth_error l i, nth_error m i with Some x, Some y => same_pol x y | None, None => True | _, _ => False end).
  { intros l m i F. revert i. induction F as [|x y l m H F IH]; intros [|i]; cbn; auto. apply IH. }
  induction fuel as [|fuel IH]; intros l m p q low high F S; [reflexivity|]. cbn [bisect]. destruct (low <? high); auto.
  specialize (N l m ((low + high) / 2) F). destruct (nth_error l _), (nth_error m _); try tauto; auto.
  rewrite (same_pol_lt _ _ _ _ S N). destruct (policy_lt q _); apply IH; auto.
Qed.
Lemma Forall2_len : forall {X} (R : X -> X -> Prop) l m, Forall2 R l m -> List.length l = List.length m.
Proof using. intros X R l m F. induction F; cbn; auto. Qed.
Lemma Forall2_firstn : forall {X} (R : X -> X -> Prop) l m i, Forall2 R l m -> Forall2 R (firstn i l) (firstn i m).
Proof using. intros X R l m i F. revert i. induction F; intros [|i]; cbn; constructor; auto. Qed.
Lemma Forall2_skipn : forall {X} (R : X -> X -> Prop) l m i, Forall2 R l m -> Forall2 R (skipn i l) (skipn i m).
Proof using. intros X R l m i F. revert i. induction F; intros [|i]; cbn; auto. Qed.
Lemma same_insort : forall l m p q, Forall2 same_pol l m -> same_pol p q ->
  match insort l p, insort m q with Some l', Some m' => Forall2 same_pol l' m' | None, None => True | _, _ => False end.
Proof using.
  intros l m p q F S. unfold insort. rewrite (same_bisect _ _ _ _ _ _ _ F S), (Forall2_len _ _ _ F). destruct (bisect _ _ _ _ _); auto.
  apply Forall2_app; [apply Forall2_firstn; auto|]. constructor; auto. apply Forall2_skipn; auto.
Qed.
Lemma same_lget : forall ls1 ls2 n, same_layers same_pol ls1 ls2 ->
  match lget ls1 n, lget ls2 n with Some l, Some m => Forall2 same_pol l m | None, None => True | _, _ => False end.
Proof using.
  intros ls1 ls2 n F. unfold lget. induction F as [|[a l] [b m] ls1 ls2 [E H] F IH]; cbn [find fst snd] in *; auto. subst b.
  destruct (lname_eqb a n); cbn [snd]; auto.
Qed.
Lemma same_lset : forall ls1 ls2 n l m, same_layers same_pol ls1 ls2 -> Forall2 same_pol l m -> same_layers same_pol (lset ls1 n l) (lset ls2 n m).
Proof using.
  intros ls1 ls2 n l m F H. unfold same_layers in *. induction F as [|[a x] [b y] ls1 ls2 [E G] F IH]; cbn [lset fst snd] in *.
  - constructor; auto.
  - subst b. destruct (lname_eqb a n); constructor; auto.
Qed.
Lemma same_ldel : forall ls1 ls2 n, same_layers same_pol ls1 ls2 -> same_layers same_pol (ldel ls1 n) (ldel ls2 n).
Proof using.
  intros ls1 ls2 n F. unfold same_layers, ldel in *. induction F as [|[a x] [b y] ls1 ls2 [E G] F IH]; cbn [filter fst snd] in *; [constructor|].
  subst b. destruct (lname_eqb a n); cbn [negb]; auto.
Qed.
Lemma same_append : forall c d p q, map fst (policies c) = map fst (policies d) -> same_layers same_pol (lays c) (lays d) -> same_pol p q ->
  match append_policy c p, append_policy d q with
  | Some c', Some d' => map fst (policies c') = map fst (policies d') /\ same_layers same_pol (lays c') (lays d')
  | None, None => True | _, _ => False end.
Proof using.
  intros c d p q Ek F S. pose proof (same_pol_name p q S) as En. pose proof S as [Kp _]. unfold append_policy. rewrite <- Kp, <- En.
  destruct (ptype_eqb (p_kind p) TUnknown); auto.
  assert (Ex : existsb (fun e => key_eqb (fst e) (full_name p, p_kind p)) (policies c) = existsb (fun e => key_eqb (fst e) (full_name p, p_kind p)) (policies d)).
  { assert (X : forall m : list ((string * ptype) * policy), existsb (fun e => key_eqb (fst e) (full_name p, p_kind p)) m = existsb (fun k => key_eqb k (full_name p, p_kind p)) (map fst m)).
    { induction m as [|e m IH]; cbn; auto. rewrite IH. auto. }
    rewrite !X, Ek. reflexivity. }
  rewrite <- Ex. destruct (existsb _ (policies c)); auto.
  assert (LA : match layers_add (lays c) p (layer_of_type (p_kind p)), layers_add (lays d) q (layer_of_type (p_kind p)) with
               | Some a, Some b => same_layers same_pol a b | None, None => True | _, _ => False end).
  { unfold layers_add. destruct (layer_of_type (p_kind p)) as [n|]; auto.
    assert (H : match (match lget (lays c) n with None => Some [p] | Some l => insort l p end),
                      (match lget (lays d) n with None => Some [q] | Some l => insort l q end) with
                | Some l', Some m' => Forall2 same_pol l' m' | None, None => True | _, _ => False end).
    { pose proof (same_lget _ _ n F) as G. destruct (lget (lays c) n), (lget (lays d) n); try tauto; [apply same_insort; auto|]. constructor; auto. }
    destruct (match lget (lays c) n with None => _ | Some l => _ end) as [l'|], (match lget (lays d) n with None => _ | Some l => _ end) as [m'|]; try tauto.
    pose proof (same_lset _ _ n _ _ F H) as G. pose proof (same_lget _ _ LK8sCalico G) as G2.
    destruct (lget (lset (lays c) n l') LK8sCalico) as [[|x1 x2]|], (lget (lset (lays d) n m') LK8sCalico) as [[|y1 y2]|]; try tauto;
      try (inversion G2; fail); auto. apply same_ldel; auto. }
  destruct (layers_add (lays c) p _), (layers_add (lays d) q _); try tauto. cbn [policies lays]. split; auto.
  rewrite !map_app, Ek. reflexivity.
Qed.
Lemma same_add_all : forall ps qs c d, Forall2 same_pol ps qs -> map fst (policies c) = map fst (policies d) -> same_layers same_pol (lays c) (lays d) ->
  same_layers same_pol (lays (add_all c ps)) (lays (add_all d qs)).
Proof using.
  intros ps qs c d F. revert c d. induction F as [|p q ps qs H F IH]; intros c d E S; auto. cbn [add_all fold_left].
  pose proof (same_append c d p q E S H) as X. destruct (append_policy c p), (append_policy d q); try tauto; apply IH; tauto.
Qed.
(** The container's policies were added in the order of its map. *)
Definition loaded (g : config) : Prop := g_pols g = add_all pcont_init (policy_list g).
Lemma add_all_loaded : forall ps (c : @pcont C), exists acc, policies (add_all c ps) = policies c ++ acc /\ add_all c ps = add_all c (map snd acc).
Proof using.
  induction ps as [|p ps IH]; intros c.
  - exists []. split; [symmetry; apply app_nil_r|reflexivity].
  - cbn [add_all fold_left]. destruct (append_policy c p) as [c'|] eqn:E; [|apply IH].
    destruct (IH c') as (acc & E1 & E2). exists (((full_name p, p_kind p), p) :: acc).
    assert (Ep : policies c' = policies c ++ [((full_name p, p_kind p), p)]).
    { unfold append_policy in E. destruct (ptype_eqb _ _); [discriminate|]. destruct (existsb _ _); [discriminate|].
      destruct (layers_add _ _ _); [|discriminate]. injection E as <-. reflexivity. }
    fold (add_all c' ps). rewrite E1, Ep, <- app_assoc. split; auto. cbn [map snd add_all fold_left]. rewrite E. exact E2.
Qed.
Lemma loaded_any : forall ps pl sv, loaded (Config ps sv (add_all pcont_init pl)).
Proof using.
  intros ps pl sv. unfold loaded, policy_list. cbn [g_pols]. destruct (add_all_loaded pl pcont_init) as (acc & E1 & E2).
  rewrite E1. exact E2.
Qed.
Lemma pdict_Forall2 : forall (m n : @pdict C), NoDup (map fst n) -> map fst m = map fst n -> pdict_eqb A rid m n = true ->
  (forall k p, In (k, p) m -> k = (full_name p, p_kind p)) -> (forall k p, In (k, p) n -> k = (full_name p, p_kind p)) ->
  Forall2 same_pol (map snd m) (map snd n).
Proof using.
  intros m n N E H Km Kn. unfold pdict_eqb in H. apply andb_true_iff in H as [_ H]. rewrite forallb_forall in H.
  assert (G : forall e, In e m -> exists q, In (fst e, q) n /\ policy_eqb A rid (snd e) q = true).
  { intros e He. specialize (H e He). unfold pfind in H. destruct (find _ n) as [[k q]|] eqn:F; [|discriminate]. apply find_some in F as [F1 F2].
    cbn [fst snd] in *. apply key_eqb_eq in F2. subst k. eauto. }
  clear H. revert n N E Kn G. induction m as [|[k p] m IH]; intros [|[k' q] n] N E Kn G; try discriminate; [constructor|].
  cbn [map fst snd] in *. injection E as -> E. inversion N as [|? ? N1 N2]; subst.
  constructor.
  - destruct (G (k', p) (or_introl eq_refl)) as (q' & Hq & He). cbn [fst snd] in *. destruct Hq as [Hq|Hq].
    + injection Hq as ->. split; auto. pose proof (Km _ _ (or_introl eq_refl)) as X. pose proof (Kn _ _ (or_introl eq_refl)) as Y. congruence.
    + exfalso. apply N1. change k' with (fst (k', q')). apply in_map. auto.
  - apply IH; auto.
    + intros k p0 Hk. apply Km. right; auto.
    + intros k p0 Hk. apply Kn. right; auto.
    + intros [k p0] He. destruct (G (k, p0) (or_intror He)) as (q' & [Hq|Hq] & X); [|eauto]. exfalso. cbn [fst] in Hq. injection Hq as -> ->.
      apply N1. rewrite <- E. change k with (fst (k, p0)). apply in_map. auto.
Qed.

Context (RS : forall r s, rid r s = true -> r = s).
Lemma same_alike : forall ps1 ps2 n l m, layer_ok A cok csafe vis n true l -> layer_ok A cok csafe vis n true m -> stays ps1 l -> stays ps2 m ->
  Forall2 same_pol l m -> Forall2 alike l m.
Proof using L RS.
  intros ps1 ps2 n l m [O1 _] [O2 _] S1 S2 F. induction F as [|p q l m [K H] F IH]; constructor.
  - apply (eqb_alike A src dst tcp space cmem cok csafe vis L rid RS); auto; [apply O1; left; auto|apply O2; left; auto| |];
      intros ing pt a Sp D; [apply (S1 p ing pt a)|apply (S2 q ing pt a)]; auto; left; auto.
  - apply IH; [intros x Hx; apply O1; right; auto|intros x Hx; apply O2; right; auto| |];
      intros x ing pt a Hx; [apply S1|apply S2]; right; auto.
Qed.
Definition same_order (g1 g2 : config) : Prop := loaded g1 /\ loaded g2 /\ map fst (policies (g_pols g1)) = map fst (policies (g_pols g2)).

Lemma same_policies_layers : forall g1 g2, cfg_ok g1 -> cfg_ok g2 -> same_order g1 g2 ->
  pdict_eqb A rid (policies (g_pols g1)) (policies (g_pols g2)) = true -> same_layers alike (lays (g_pols g1)) (lays (g_pols g2)).
Proof using L RS.
  intros g1 g2 (C1 & K1 & S1) (C2 & K2 & S2) (L1 & L2 & E) H.
  assert (I1 : inv (g_pols g1)) by (rewrite L1; apply inv_add_all; apply inv_init).
  assert (I2 : inv (g_pols g2)) by (rewrite L2; apply inv_add_all; apply inv_init).
  assert (F : Forall2 same_pol (policy_list g1) (policy_list g2)).
  { apply pdict_Forall2; auto; [apply I2| |]; intros k p Hk; [apply (inv_names _ I1)|apply (inv_names _ I2)]; auto. }
  assert (X : same_layers same_pol (lays (g_pols g1)) (lays (g_pols g2))).
  { rewrite L1, L2. apply same_add_all; auto. unfold same_layers, pcont_init, layers_init. cbn [lays]. repeat constructor. }
  clear - L RS X K1 K2 S1 S2. unfold same_layers in *. revert K1 K2 S1 S2. induction X as [|[n l] [n' m] ls1 ls2 [E F] X IH]; intros K1 K2 S1 S2; constructor.
  - cbn [fst snd] in *. subst n'. split; auto. apply (same_alike (g_peers g1) (g_peers g2) n); auto.
    + apply (K1 n l); left; auto.
    + apply (K2 n m); left; auto.
    + apply (S1 n l); left; auto.
    + apply (S2 n m); left; auto.
  - apply IH; intros a b Hab; [apply K1|apply K2|apply (S1 a)|apply (S2 a)]; right; auto.
Qed.
Lemma same_layers_allows : forall g1 g2 on pt, cfg_ok g1 -> cfg_ok g2 -> (forall x, member (g_peers g1) x <-> member (g_peers g2) x) ->
  same_layers alike (lays (g_pols g1)) (lays (g_pols g2)) -> space pt -> (allows_on on g1 pt <-> allows_on on g2 pt).
Proof using L.
  intros g1 g2 on pt (C1 & K1 & S1) (C2 & K2 & S2) M F Sp.
  assert (G : forall n, match lget (lays (g_pols g1)) n, lget (lays (g_pols g2)) n with Some l, Some m => Forall2 alike l m | None, None => True | _, _ => False end).
  { intros n. unfold lget. clear - F. unfold same_layers in F. induction F as [|[a l] [b m] ls1 ls2 [E H] F IH]; cbn [find fst snd] in *; auto. subst b.
    destruct (lname_eqb a n); cbn [snd]; auto. }
  destruct on as [n|]; cbn [allows_on].
  - specialize (G n). destruct (lget (lays (g_pols g1)) n), (lget (lays (g_pols g2)) n); try tauto; apply (alike_layer src dst tcp space cmem); auto.
  - unfold allows, all_of.
    destruct (config_all_spec A _ _ _ _ _ _ _ _ L _ C1 _ K1) as [_ M1]. destruct (config_all_spec A _ _ _ _ _ _ _ _ L _ C2 _ K2) as [_ M2].
    rewrite M1, M2 by auto.
    assert (EH : pbool (host_eps (g_peers g1)) = pbool (host_eps (g_peers g2))).
    { apply Bool.eq_true_iff_eq. rewrite (host_eps_bool vis _ C1), (host_eps_bool vis _ C2). unfold has_hep.
      split; intros (x & X1 & X2); exists x; split; auto; apply M; auto. }
    rewrite EH.
    assert (EA : forall x, anywhere (g_peers g1) x <-> anywhere (g_peers g2) x) by (intros x; unfold anywhere; rewrite M; tauto).
    assert (EL : (forall n pols, In (n, pols) (lays (g_pols g1)) -> layer_allows src dst tcp cmem (g_peers g1) n pols pt) <->
                 (forall n pols, In (n, pols) (lays (g_pols g2)) -> layer_allows src dst tcp cmem (g_peers g2) n pols pt)).
    { clear - F M Sp. unfold same_layers in F. induction F as [|[a l] [b m] ls1 ls2 [E H] F IH]; cbn [fst snd] in *.
      - split; intros _ n p [].
      - subst b. pose proof (alike_layer src dst tcp space cmem (g_peers g1) (g_peers g2) a l m pt H M Sp) as X. split; intros Y n pols [Hn|Hn].
        + injection Hn as <- <-. apply X. apply Y. left; auto.
        + apply IH; auto. intros n' p' H'. apply Y. right; auto.
        + injection Hn as <- <-. apply X. apply Y. left; auto.
        + apply IH; auto. intros n' p' H'. apply Y. right; auto. }
    rewrite EL. specialize (G LK8sCalico).
    destruct (pbool (host_eps (g_peers g2))); [|rewrite !EA; tauto].
    destruct (lget (lays (g_pols g1)) LK8sCalico), (lget (lays (g_pols g2)) LK8sCalico); try tauto; [rewrite !EA; tauto|].
    rewrite (alike_layer src dst tcp space cmem (g_peers g1) (g_peers g2) LK8sCalico [] [] pt); auto. tauto.
Qed.

(** The whole query. *)
Definition equal_peers (g1 g2 : config) : Prop := (forall x, member (g_peers g1) x <-> member (g_peers g2) x) /\
  (forall s, In s (g_services g1) <-> In s (g_services g2)).
Lemma container_pok : forall ps, container vis ps -> pok vis ps /\ forall x, pt_in x ps <-> member ps x.
Proof using.
  intros ps H. split.
  - split; [intros l Hl; apply H in Hl as [_ Hl]; discriminate|intros k n Hk; apply H in Hk; tauto].
  - intros [k n|y]; cbn [pt_in member]; [tauto|]. split; [|tauto]. intros (l & Hl & _). apply H in Hl as [_ Hl]. discriminate.
Qed.
Lemma comparable_spec : forall g1 g2, container vis (g_peers g1) -> container vis (g_peers g2) ->
  (comparable g1 g2 = true <-> equal_peers g1 g2).
Proof using.
  intros g1 g2 C1 C2. unfold comparable, equal_peers, same_services.
  destruct (container_pok _ C1) as [P1 M1]. destruct (container_pok _ C2) as [P2 M2].
  assert (X : forall l m : list string, forallb (fun s => existsb (String.eqb s) m) l = true <-> forall s, In s l -> In s m).
  { intros l m. rewrite forallb_forall. split; intros H s Hs; specialize (H s Hs).
    - apply existsb_exists in H as (t & Ht & E). apply String.eqb_eq in E. congruence.
    - apply existsb_exists. exists s. split; auto. apply String.eqb_refl. }
  rewrite !andb_true_iff, !X, (peq_spec vis _ _ P1 P2). split.
  - intros (H1 & H2 & H3). split; [intros x; rewrite <- M1, <- M2; auto|]. intros s. split; auto.
  - intros (H1 & H2). split; [intros x; rewrite M1, M2; auto|]. split; intros s; apply H2.
Qed.

Lemma equivalence_spec : forall h6 flag g1 g2 on, cfg_ok g1 -> cfg_ok g2 -> ok_on on g1 -> ok_on on g2 ->
  (pdict_eqb A rid (policies (g_pols g1)) (policies (g_pols g2)) = true -> same_order g1 g2) ->
  let a := equivalence A Q h6 rid flag g1 g2 on in
  (~ equal_peers g1 g2 -> a = Answer false 1 true []) /\
  (equal_peers g1 g2 -> compared (excl h6 flag g1 g2) (allows_on on g1) (allows_on on g2) a).
Proof using L QL NB RS.
  intros h6 flag g1 g2 on K1 K2 S1 S2 O. cbv zeta. unfold equivalence, identical.
  pose proof (comparable_spec g1 g2 (proj1 K1) (proj1 K2)) as CS. destruct (comparable g1 g2); cbn [negb].
  2:{ split; auto. intros X. apply CS in X. discriminate. }
  split; [intros X; exfalso; apply X; apply CS; auto|]. intros [X _]. cbn [andb].
  destruct (pdict_eqb A rid (policies (g_pols g1)) (policies (g_pols g2))) eqn:E.
  - pose proof (same_policies_layers g1 g2 K1 K2 (O eq_refl) E) as F.
    assert (S : forall pt, space pt -> (allows_on on g1 pt <-> allows_on on g2 pt)) by (intros pt Sp; apply same_layers_allows; auto).
    unfold compared. cbn [a_bool a_num a_skip a_expl negb bz]. split; auto. split; auto. split; [|split; [auto|discriminate]]. intros _. split; auto.
  - apply check_equivalence_spec; auto.
Qed.

(** ** Containment *)
Definition contained (ex6 : bool) (g1 g2 : config) (P1 P2 : Pt -> Prop) : Prop :=
  (forall x, member (g_peers g1) x -> member (g_peers g2) x) /\ forall pt, space pt -> rel ex6 pt -> P1 pt -> P2 pt.
(** The sets listed in the explanation of a negative answer, if the peers do not already differ. *)
Definition difference (ex6 : bool) (P1 P2 : Pt -> Prop) (l : list C) : Prop :=
  exists d, l = [d] /\ cok d /\ forall pt, space pt -> (cmem pt d <-> rel ex6 pt /\ P1 pt /\ ~ P2 pt).

Lemma peer_dec : forall p q : peer, {p = q} + {p <> q}.
Proof using. intros p q. repeat decide equality. Defined.
Lemma members_sub : forall ps1 ps2, container vis ps1 -> container vis ps2 ->
  (pbool (psub (peers_group ps1 false true) (peers_group ps2 false true)) = false <-> forall x, member ps1 x -> member ps2 x).
Proof using.
  intros ps1 ps2 C1 C2. destruct (peers_group_spec vis ps1 false true C1) as [G1 H1]. destruct (peers_group_spec vis ps2 false true C2) as [G2 H2].
  pose proof (psub_bool vis _ _ G1 G2) as B. split.
  - intros E x Hx. destruct x as [k n|y]; [|destruct Hx].
    destruct (in_dec peer_dec (Named k n) ps2) as [I|I]; [exact I|]. exfalso.
    assert (X : pbool (psub (peers_group ps1 false true) (peers_group ps2 false true)) = true).
    { apply B. exists (PN k n). rewrite H1, H2. cbn [member is_addr] in *. split; [auto|]. intros [[Y _]|[Y _]]; [auto|discriminate]. }
    congruence.
  - intros H. destruct (pbool _) eqn:E; auto. destruct (proj1 B eq_refl) as (x & X1 & X2). exfalso. rewrite H1 in X1. rewrite H2 in X2. apply X2.
    destruct X1 as [[X1 _]|[X1 _]]; [|discriminate]. left. auto.
Qed.
Lemma containment_spec : forall h6 flag cmd (capt : bool) g1 g2, cfg_ok g1 -> cfg_ok g2 -> (if capt then settled_explicit g1 else settled g1) -> settled g2 ->
  let ex6 := excl h6 flag g1 g2 in let P1 := if capt then explicitly g1 else allows g1 in
  let a := containment A Q h6 flag cmd capt g1 g2 in
  (a_bool a = true <-> contained ex6 g1 g2 P1 (allows g2)) /\ a_num a = bz (xorb cmd (a_bool a)) /\ a_skip a = false /\
  (a_bool a = true -> a_expl a = []) /\
  (a_bool a = false -> (forall x, member (g_peers g1) x -> member (g_peers g2) x) -> difference ex6 P1 (allows g2) (a_expl a)).
Proof using L QL NB.
  intros h6 flag cmd capt g1 g2 K1 K2 S1 S2. cbv zeta. unfold containment.
  pose proof (members_sub _ _ (proj1 K1) (proj1 K2)) as MS. destruct (pbool (psub _ _)).
  { cbn [a_bool a_num a_skip a_expl]. rewrite xorb_false_r. split; [|split; [auto|split; [auto|split; [discriminate|]]]].
    - split; [discriminate|]. intros [X _]. apply MS in X. discriminate.
    - intros _ X. apply MS in X. discriminate. }
  set (y1 := if capt then allowed (conns_of A g1 only_allowed) else all_allowed (conns_of A g1 only_all_allowed)).
  assert (U1 : usable g1 y1) by (unfold y1; destruct capt; [apply explicit_usable|apply all_usable]; auto).
  assert (U2 : usable g2 (all_allowed (conns_of A g2 only_all_allowed))) by (apply all_usable; auto).
  assert (E1 : forall pt, cmem pt y1 <-> (if capt then explicitly g1 else allows g1) pt) by (intros pt; unfold y1; destruct capt; reflexivity).
  set (y2 := all_allowed (conns_of A g2 only_all_allowed)) in *. assert (E2 : forall pt, cmem pt y2 <-> allows g2 pt) by (intros pt; reflexivity).
  clearbody y1 y2. set (ex6 := excl h6 flag g1 g2). pose proof (filtered_sets ex6 g1 g2 y1 y2 U1 U2) as [F1 F2 O1 O2 M1 M2 _].
  destruct (filter_conns A Q ex6 g1 g2 y1 y2) as [x1 x2]. cbn [fst snd] in *.
  pose proof (law l_cont x1 x2 F1 F2) as LC.
  assert (X : (forall pt, space pt -> cmem pt x1 -> cmem pt x2) <-> forall pt, space pt -> rel ex6 pt -> (if capt then explicitly g1 else allows g1) pt -> allows g2 pt).
  { split; intros H pt Sp; specialize (H pt Sp); rewrite M1, M2, E1, E2 in * by auto; tauto. }
  rewrite X in LC. clear X. pose proof (proj1 MS eq_refl) as PS.
  destruct (c_cont A x1 x2); cbn [a_bool a_num a_skip a_expl].
  - rewrite xorb_true_r. split; [|split; [auto|split; [auto|split; [auto|discriminate]]]]. split; auto. intros _. split; auto. apply LC. auto.
  - rewrite xorb_false_r. split; [|split; [auto|split; [auto|split; [discriminate|]]]].
    + split; [discriminate|]. intros [_ H]. apply LC in H. discriminate.
    + intros _ _. exists (c_sub A x1 x2). split; auto. split; [apply (law l_sub_ok); auto|]. intros pt Sp.
      rewrite (law l_sub), M1, M2, E1, E2 by auto. assert (D : allows g2 pt \/ ~ allows g2 pt) by (rewrite <- E2; apply (law l_dec); apply U2). tauto.
Qed.

Lemma two_way_spec : forall h6 flag cmd g1 g2, cfg_ok g1 -> cfg_ok g2 -> settled g1 -> settled g2 ->
  (pdict_eqb A rid (policies (g_pols g1)) (policies (g_pols g2)) = true -> same_order g1 g2) ->
  let ex6 := excl h6 flag g1 g2 in
  let c12 := contained ex6 g1 g2 (allows g1) (allows g2) in let c21 := contained ex6 g2 g1 (allows g2) (allows g1) in
  let a := two_way A Q h6 rid flag cmd g1 g2 in
  (a_bool a = true <-> c12 /\ c21) /\ a_skip a = false /\
  (cmd = true -> a_num a = bz (negb (a_bool a))) /\
  (cmd = false -> identical A rid g1 g2 true <> SamePolicies ->
     (c12 -> c21 -> a_num a = 3%Z) /\ (c12 -> ~ c21 -> a_num a = 2%Z) /\ (~ c12 -> c21 -> a_num a = 1%Z) /\ (~ c12 -> ~ c21 -> a_num a = 0%Z)).
Proof using L QL NB RS.
  intros h6 flag cmd g1 g2 K1 K2 S1 S2 O. cbv zeta.
  assert (Ex : excl h6 flag g1 g2 = excl h6 flag g2 g1) by (unfold excl; apply andb_comm).
  destruct (containment_spec h6 flag cmd false g1 g2 K1 K2 S1 S2) as (B12 & N12 & _ & E12 & _).
  destruct (containment_spec h6 flag cmd false g2 g1 K2 K1 S2 S1) as (B21 & N21 & _ & E21 & _).
  rewrite <- Ex in B21. cbv iota in *.
  set (c12 := contained _ g1 g2 _ _) in *. set (c21 := contained _ g2 g1 _ _) in *.
  unfold two_way. destruct (identical A rid g1 g2 true) eqn:I.
  2:{ cbn [a_bool a_num a_skip a_expl negb bz]. split; [|split; [auto|split; [auto|congruence]]]. split; [intros _|auto].
      unfold identical in I. destruct (comparable g1 g2) eqn:Cm; [|discriminate]. apply (comparable_spec g1 g2 (proj1 K1) (proj1 K2)) in Cm as [M _].
      cbn [negb andb] in I. destruct (pdict_eqb A rid (policies (g_pols g1)) (policies (g_pols g2))) eqn:E; [|discriminate].
      pose proof (same_policies_layers g1 g2 K1 K2 (O eq_refl) E) as F.
      pose proof (fun pt Sp => same_layers_allows g1 g2 None pt K1 K2 M F Sp) as S. cbn [allows_on] in S.
      split; split; try (intros x; apply M); intros pt Sp _; apply S; auto. }
  all: destruct (a_bool (containment A Q h6 flag cmd false g1 g2)) eqn:X1, (a_bool (containment A Q h6 flag cmd false g2 g1)) eqn:X2; cbn [a_bool a_num a_skip a_expl negb bz].
  all: assert (H12 := B12); assert (H21 := B21); clear B12 B21 N12 N21 E12 E21; clearbody c12 c21.
  all: destruct cmd; (split; [intuition congruence|]); (split; [auto|]); split; try discriminate; auto; intros _ _; intuition congruence.
Qed.

(** ** Permits, interferes, intersects, forbids *)
Lemma identical_comparable : forall g1 g2, container vis (g_peers g1) -> container vis (g_peers g2) ->
  (identical A rid g1 g2 false = NotComparable <-> ~ equal_peers g1 g2) /\ (identical A rid g1 g2 false <> NotComparable <-> equal_peers g1 g2).
Proof using.
  intros g1 g2 C1 C2. pose proof (comparable_spec g1 g2 C1 C2) as CS. unfold identical. destruct (comparable g1 g2); cbn [negb andb].
  - assert (equal_peers g1 g2) by (apply CS; auto). split; split; try discriminate; tauto.
  - assert (~ equal_peers g1 g2) by (rewrite <- CS; discriminate). split; split; tauto.
Qed.
Lemma interferes_spec : forall h6 flag cmd g1 g2, cfg_ok g1 -> cfg_ok g2 -> settled_explicit g1 -> settled_explicit g2 ->
  let ex6 := excl h6 flag g1 g2 in let a := interferes A Q h6 rid flag cmd g1 g2 in
  (~ equal_peers g1 g2 -> a = Answer false (bz cmd) true []) /\
  (equal_peers g1 g2 ->
     (a_bool a = true <-> exists pt, space pt /\ rel ex6 pt /\ explicitly g1 pt /\ ~ explicitly g2 pt) /\
     a_num a = bz (xorb cmd (a_bool a)) /\ a_skip a = false /\
     (a_bool a = true -> difference ex6 (explicitly g1) (explicitly g2) (a_expl a)) /\ (a_bool a = false -> a_expl a = [])).
Proof using L QL NB.
  intros h6 flag cmd g1 g2 K1 K2 S1 S2. cbv zeta. unfold interferes.
  destruct (identical_comparable g1 g2 (proj1 K1) (proj1 K2)) as [I1 I2].
  set (ex6 := excl h6 flag g1 g2).
  pose proof (explicit_usable g1 K1 S1) as U1. pose proof (explicit_usable g2 K2 S2) as U2.
  pose proof (filtered_sets ex6 g1 g2 _ _ U1 U2) as [F1 F2 O1 O2 M1 M2 _].
  change (allowed (conns_of A g1 only_allowed)) with (explicit_of A (g_peers g1) (lays (g_pols g1))).
  change (allowed (conns_of A g2 only_allowed)) with (explicit_of A (g_peers g2) (lays (g_pols g2))).
  destruct (filter_conns A Q ex6 g1 g2 _ _) as [x1 x2]. cbn [fst snd] in *.
  pose proof (law l_cont x1 x2 F1 F2) as LC. pose proof (law l_sub x1 x2) as LS.
  assert (KS : cok (c_sub A x1 x2)) by (apply (law l_sub_ok); auto).
  assert (D : forall pt, explicitly g2 pt \/ ~ explicitly g2 pt) by (intros pt; apply (law l_dec); apply U2).
  assert (DM : forall pt, space pt -> (cmem pt (c_sub A x1 x2) <-> rel ex6 pt /\ explicitly g1 pt /\ ~ explicitly g2 pt)).
  { intros pt Sp. rewrite LS, M1, M2 by auto. fold (explicitly g1 pt) (explicitly g2 pt). tauto. }
  assert (BM : c_cont A x1 x2 = false <-> exists pt, space pt /\ rel ex6 pt /\ explicitly g1 pt /\ ~ explicitly g2 pt).
  { split.
    - intros E. destruct (c_bool A (c_sub A x1 x2)) eqn:B.
      + apply (law l_bool _ KS) in B as (pt & Sp & Mp). exists pt. split; auto. apply DM; auto.
      + assert (X : c_cont A x1 x2 = true); [|congruence]. apply LC. intros pt Sp H. destruct (law l_dec x2 pt F2) as [Y|Y]; auto. exfalso.
        assert (Z : c_bool A (c_sub A x1 x2) = true); [|congruence]. apply (law l_bool _ KS). exists pt. split; auto. apply LS; auto.
    - intros (pt & Sp & R & H1 & H2). destruct (c_cont A x1 x2); auto. exfalso. apply H2.
      assert (X : cmem pt x2) by (apply (proj1 LC eq_refl); auto; apply M1; auto). apply M2 in X as [X _]; auto. }
  destruct (identical A rid g1 g2 false) eqn:I.
  1:{ split; auto. intros X. apply I2 in X. congruence. }
  all: (split; [intros X; exfalso; apply X; apply I2; discriminate|]); intros _; destruct (c_cont A x1 x2); cbn [a_bool a_num a_skip a_expl];
    rewrite ?xorb_true_r, ?xorb_false_r; (split; [split; [try discriminate; intros _; apply BM; auto|intros H; auto; apply BM in H; discriminate]|]);
    (split; [auto|]); (split; [auto|]); split; try discriminate; auto; intros _; exists (c_sub A x1 x2); auto.
Qed.
Lemma intersects_spec : forall h6 flag g1 g2, cfg_ok g1 -> cfg_ok g2 -> settled_explicit g1 -> settled g2 ->
  let ex6 := excl h6 flag g1 g2 in let a := intersects A Q h6 rid flag g1 g2 in
  (~ equal_peers g1 g2 -> a = Answer false 0 true []) /\
  (equal_peers g1 g2 ->
     (a_bool a = true <-> exists pt, space pt /\ rel ex6 pt /\ explicitly g1 pt /\ allows g2 pt) /\
     a_num a = bz (negb (a_bool a)) /\ a_skip a = false /\
     (a_bool a = true -> exists d, a_expl a = [d] /\ cok d /\ forall pt, space pt -> (cmem pt d <-> rel ex6 pt /\ explicitly g1 pt /\ allows g2 pt)) /\
     (a_bool a = false -> a_expl a = [])).
Proof using L QL NB.
  intros h6 flag g1 g2 K1 K2 S1 S2. cbv zeta. unfold intersects.
  destruct (identical_comparable g1 g2 (proj1 K1) (proj1 K2)) as [I1 I2].
  set (ex6 := excl h6 flag g1 g2).
  pose proof (explicit_usable g1 K1 S1) as U1. pose proof (all_usable g2 K2 S2) as U2.
  pose proof (filtered_sets ex6 g1 g2 _ _ U1 U2) as [F1 F2 O1 O2 M1 M2 _].
  change (allowed (conns_of A g1 only_allowed)) with (explicit_of A (g_peers g1) (lays (g_pols g1))).
  change (all_allowed (conns_of A g2 only_all_allowed)) with (all_of A (g_peers g2) (lays (g_pols g2))).
  destruct (filter_conns A Q ex6 g1 g2 _ _) as [x1 x2]. cbn [fst snd] in *.
  assert (KA : cok (c_and A x1 x2)) by (apply (law l_and_ok); auto).
  assert (DM : forall pt, space pt -> (cmem pt (c_and A x1 x2) <-> rel ex6 pt /\ explicitly g1 pt /\ allows g2 pt)).
  { intros pt Sp. rewrite (law l_and), M1, M2 by auto. unfold explicitly, allows. tauto. }
  assert (BM : c_bool A (c_and A x1 x2) = true <-> exists pt, space pt /\ rel ex6 pt /\ explicitly g1 pt /\ allows g2 pt).
  { rewrite (law l_bool _ KA). split; intros (pt & Sp & H); exists pt; (split; [auto|]); apply DM; auto. }
  destruct (identical A rid g1 g2 false) eqn:I.
  1:{ split; auto. intros X. apply I2 in X. congruence. }
  all: (split; [intros X; exfalso; apply X; apply I2; discriminate|]); intros _; cbv zeta; destruct (c_bool A (c_and A x1 x2)); cbn [a_bool a_num a_skip a_expl];
    (split; [exact BM|]); (split; [auto|]); (split; [auto|]); split; try discriminate; auto; intros _; exists (c_and A x1 x2); auto.
Qed.
Lemma has_policies_spec : forall g : config, has_policies g = true <-> policy_list g <> [].
Proof using. intros g. unfold has_policies, policy_list. destruct (policies (g_pols g)); cbn [map]; split; congruence. Qed.

Lemma permits_spec : forall h6 flag cmd g1 g2, let g1' := without_gateways g1 in cfg_ok g1' -> cfg_ok g2 -> settled_explicit g1' -> settled g2 ->
  policy_list g1 <> [] -> only_gateway_layers (lays (g_pols g1)) = false -> equal_peers g1 g2 ->
  let ex6 := excl h6 flag g1' g2 in let a := permits A Q h6 rid flag cmd g1 g2 in
  (a_bool a = true <-> forall pt, space pt -> rel ex6 pt -> explicitly g1' pt -> allows g2 pt) /\
  a_num a = bz (negb (a_bool a)) /\ a_skip a = false /\
  (a_bool a = false -> difference ex6 (explicitly g1') (allows g2) (a_expl a)).
Proof using L QL NB.
  intros h6 flag cmd g1 g2 g1' K1 K2 S1 S2 NE OG EP. cbv zeta. unfold permits. apply has_policies_spec in NE. rewrite NE, OG. cbn [negb].
  assert (EQ : g_peers g1' = g_peers g1) by (unfold g1', without_gateways; destruct (_ || _); reflexivity).
  assert (I : identical A rid g1 g2 false <> NotComparable) by (apply identical_comparable; auto; [rewrite <- EQ; apply K1|apply K2]).
  destruct (containment_spec h6 flag cmd true g1' g2 K1 K2 S1 S2) as (B & N & Sk & _ & D). cbv iota in *. fold g1'.
  assert (M : forall x, member (g_peers g1') x -> member (g_peers g2) x) by (intros x; rewrite EQ; apply EP).
  set (c := containment A Q h6 flag cmd true g1' g2) in *. clearbody c.
  assert (G : (a_bool c = true <-> forall pt, space pt -> rel (excl h6 flag g1' g2) pt -> explicitly g1' pt -> allows g2 pt)).
  { rewrite B. unfold contained. tauto. }
  destruct (identical A rid g1 g2 false) eqn:Ei; [congruence| |]; destruct cmd; cbn [a_bool a_num a_skip a_expl explained]; unfold explained; (split; [exact G|]);
    rewrite ?N; (split; [reflexivity|]); (split; [auto|]); auto.
Qed.
Lemma forbids_spec : forall h6 flag g1 g2, let g1' := without_gateways g1 in cfg_ok g1' -> cfg_ok g2 -> settled_explicit g1' -> settled g2 ->
  policy_list g1 <> [] -> only_gateway_layers (lays (g_pols g1)) = false -> equal_peers g1 g2 ->
  let ex6 := excl h6 flag g1' g2 in let a := forbids A Q h6 rid flag g1 g2 in
  (a_bool a = false <-> forall pt, space pt -> rel ex6 pt -> explicitly g1' pt -> ~ allows g2 pt) /\
  a_num a = bz (a_bool a) /\ a_skip a = false /\
  (a_bool a = true -> exists d, a_expl a = [d] /\ cok d /\ forall pt, space pt -> (cmem pt d <-> rel ex6 pt /\ explicitly g1' pt /\ allows g2 pt)).
Proof using L QL NB.
  intros h6 flag g1 g2 g1' K1 K2 S1 S2 NE OG EP. cbv zeta. unfold forbids. apply has_policies_spec in NE. rewrite NE, OG. cbn [negb a_bool a_num a_skip a_expl].
  assert (EQ : g_peers g1' = g_peers g1) by (unfold g1', without_gateways; destruct (_ || _); reflexivity).
  assert (ES : g_services g1' = g_services g1) by (unfold g1', without_gateways; destruct (_ || _); reflexivity).
  destruct (intersects_spec h6 flag g1' g2 K1 K2 S1 S2) as [_ H]. destruct H as (B & N & Sk & D & _); [unfold equal_peers; rewrite EQ, ES; exact EP|].
  fold g1'. split; [|auto].
  split.
  - intros F pt Sp R E1 E2. assert (X : a_bool (intersects A Q h6 rid flag g1' g2) = true) by (apply B; exists pt; auto). congruence.
  - intros H. destruct (a_bool (intersects A Q h6 rid flag g1' g2)); auto. destruct (proj1 B eq_refl) as (pt & Sp & R & E1 & E2). exfalso. apply (H pt Sp R E1 E2).
Qed.
End Specs.
