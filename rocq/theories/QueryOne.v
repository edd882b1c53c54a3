(** * The queries on one configuration, for abstract connection sets. *)
From Coq Require Import ZArith List Bool Arith Lia String Permutation.
From Verif Require Import IntervalModel IntervalFacts PortProtoModel PeerModel PeerFacts PeerSetFacts PolicyModel
                          PolicyLaws PolicyFacts LayerFacts OrderFacts QueryModel QueryFacts QuerySpecs SemDiff.
Import ListNotations.
Local Open Scope nat_scope.

(** An intersection is empty exactly when it looks empty. *)
Lemma pinter_bool : forall reg s t, pok reg s -> pok reg t -> (pbool (pinter s t) = true <-> exists x, pt_in x s /\ pt_in x t).
Proof.
  intros reg s t Ks Kt. destruct (pinter_spec reg s t Ks Kt) as [P1 P2].
  assert (B : forall l, In (Block l) (pinter s t) -> exists y, mem y l).
  { intros l H. assert (Ip : ipset l) by (destruct P1 as [P1 _]; apply P1; auto). clear P1 P2.
    destruct Ks as [Ks _], Kt as [Kt _]. unfold pinter in H.
    destruct (ps_inter_ok s t Ks Kt) as (r & Er & _). rewrite Er in H. unfold ps_inter in Er.
    destruct (ip_canonical_ok s Ks) as (a & Ea & Ha & Ma). destruct (ip_canonical_ok t Kt) as (b & Eb & Hb & Mb).
    rewrite Ea, Eb in Er. cbn [bind] in Er. injection Er as <-. apply ps_union_In in H as [H|H].
    - apply filter_In in H as [H _]. apply without_In in H as [_ H]. discriminate.
    - unfold block_peer_set in H. destruct (iset_bool (ipb_and a b)) eqn:E; [|destruct H]. destruct H as [H|[]].
      injection H as H. rewrite H in E. destruct l as [|i l]; [discriminate|]. exists (lo i), i. split; [left; auto|].
      destruct Ip as [[Ip _] _]. lia. }
  destruct (pinter s t) as [|[k n|l] q] eqn:E; cbn [pbool].
  - split; [discriminate|]. intros [x H]. apply P2 in H. exfalso. revert H. apply pbool_false. auto.
  - split; auto. intros _. exists (PN k n). apply P2. left. auto.
  - split; auto. intros _. destruct (B l) as [y Hy]; [left; auto|]. exists (PA y). apply P2. exists l. split; [left; auto|auto].
Qed.
(** No block of the set is empty. *)
Definition no_void (s : peerset) : Prop := forall l, In (Block l) s -> exists y, mem y l.
Lemma bool_void : forall s, no_void s -> (pbool s = false <-> forall x, ~ pt_in x s).
Proof.
  intros s NV. split; [intros H x; apply pbool_false; auto|]. intros H. destruct s as [|[k n|l] s]; auto; exfalso.
  - apply (H (PN k n)). left. auto.
  - destruct (NV l) as [y Hy]; [left; auto|]. apply (H (PA y)). exists l. split; [left; auto|auto].
Qed.

(** ** Lists *)
Lemma NoDup_flat : forall {X Y} (f : X -> list Y) l, NoDup l -> (forall x, In x l -> NoDup (f x)) ->
  (forall x y z, In x l -> In y l -> In z (f x) -> In z (f y) -> x = y) -> NoDup (flat_map f l).
Proof.
  intros X Y f l N. induction N as [|x l Nx N IH]; intros H1 H2; [constructor|]. cbn [flat_map].
  assert (A : forall z, In z (f x) -> ~ In z (flat_map f l)).
  { intros z Hz Hf. apply in_flat_map in Hf as (y & Hy & Hz'). assert (x = y) by (apply (H2 x y z); simpl; auto). subst. auto. }
  assert (B : NoDup (flat_map f l)) by (apply IH; [intros y Hy; apply H1; simpl; auto|intros a b c Ha Hb; apply H2; simpl; auto]).
  assert (C : NoDup (f x)) by (apply H1; simpl; auto). clear - A B C. induction C as [|z m Nz C IH]; [exact B|].
  cbn [app]. constructor.
  - rewrite in_app_iff. intros [H|H]; [auto|]. apply (A z); simpl; auto.
  - apply IH. intros w Hw. apply A. simpl. auto.
Qed.
Lemma NoDup_map_inv' : forall {X Y} (f : X -> Y) l, NoDup (map f l) -> NoDup l.
Proof. intros. eapply NoDup_map_inv; eauto. Qed.

Lemma filter_le : forall {X} (f : X -> bool) l, List.length (filter f l) <= List.length l.
Proof. intros X f l. induction l as [|x l IH]; [auto|]. cbn [filter List.length]. destruct (f x); cbn [List.length]; lia. Qed.
Lemma filter_lt : forall {X} (f : X -> bool) l x, In x l -> f x = false -> List.length (filter f l) < List.length l.
Proof.
  intros X f l x H F. induction l as [|y l IH]; [destruct H|]. destruct H as [->|H]; cbn [filter List.length].
  - rewrite F. pose proof (filter_le f l). lia.
  - specialize (IH H). destruct (f y); cbn [List.length]; lia.
Qed.

Section One.
Context {C Pt : Type} (A : cops C) (Q : qops C) (src dst : Pt -> point) (tcp : Pt -> bool) (space : Pt -> Prop)
        (cmem : Pt -> C -> Prop) (cok : C -> Prop) (csafe : C -> C -> Prop) (vis : list peer) (put : Pt -> Pt -> Pt)
        (L : claws A src dst tcp space cmem cok csafe vis) (QL : qlaws A Q src dst tcp space cmem cok csafe vis put)
        (NB : forall p, In p vis -> is_block p = false)
        (rid : @rule C -> @rule C -> bool).
Local Notation law f := (f _ _ _ _ _ _ _ _ _ L).
Local Notation policy := (@policy C).
Local Notation rule := (@rule C).
Local Notation config := (@config C).
Local Notation rel ex6 pt := (relevant ex6 (src pt) (dst pt)).
Local Notation cfg_ok := (cfg_ok A src dst space cmem cok csafe vis).
Local Notation policy_eqb := (policy_eqb A rid).

(** ** Policies of the layers *)
Lemma layer_policy : forall (g : config) n pols (p : policy), inv (g_pols g) -> In (n, pols) (lays (g_pols g)) -> In p pols ->
  In p (policy_list g) /\ of_layer n p = true.
Proof using.
  intros g n pols p I H Hp. pose proof (inv_lists _ I n) as P.
  assert (E : layer_list (g_pols g) n = pols).
  { unfold layer_list. rewrite (proj2 (lget_In (lays (g_pols g)) n pols (inv_layers _ I)) H). reflexivity. }
  rewrite E in P. apply (Permutation_in _ P) in Hp. apply filter_In in Hp. exact Hp.
Qed.
Lemma policy_list_NoDup : forall (g : config), inv (g_pols g) -> NoDup (policy_list g).
Proof using.
  intros g I. pose proof (inv_keys _ I) as N. pose proof (inv_names _ I) as H.
  assert (E : map fst (policies (g_pols g)) = map (fun p => (full_name p, p_kind p)) (policy_list g)).
  { unfold policy_list. clear N I. induction (policies (g_pols g)) as [|[k p] l IH]; [reflexivity|]. cbn [map fst snd].
    rewrite (proj1 (H k p (or_introl eq_refl))). f_equal. apply IH. intros k' p' H'. apply H. simpl. auto. }
  rewrite E in N. eapply NoDup_map_inv; eauto.
Qed.
Lemma layer_NoDup : forall (g : config) n pols, inv (g_pols g) -> In (n, pols) (lays (g_pols g)) -> NoDup pols.
Proof using.
  intros g n pols I H. pose proof (inv_lists _ I n) as P.
  assert (E : layer_list (g_pols g) n = pols).
  { unfold layer_list. rewrite (proj2 (lget_In (lays (g_pols g)) n pols (inv_layers _ I)) H). reflexivity. }
  rewrite E in P. apply Permutation_sym in P. eapply Permutation_NoDup; eauto. apply NoDup_filter. apply policy_list_NoDup; auto.
Qed.

(** ** Disjointness *)
(** [q] stands before [p] in the list. *)
Definition earlier {X} (q p : X) (l : list X) : Prop := exists l1 l2 l3, l = l1 ++ q :: l2 ++ p :: l3.
Definition common (p q : policy) : Prop := exists x, pt_in x (p_selected p) /\ pt_in x (p_selected q).
(** Different policies of the list do not compare equal (and comparing equal is reflexive). *)
Definition apart (pols : list policy) : Prop := forall p q, In p pols -> In q pols -> (policy_eqb p q = true <-> p = q).

Lemma pairs_with_spec : forall p pre post, (forall q, In q pre -> policy_eqb p q = false) -> policy_eqb p p = true ->
  pairs_with A rid p (pre ++ p :: post) = map (fun q => (p, q)) (filter (fun q => pbool (pinter (p_selected p) (p_selected q))) pre).
Proof using.
  intros p pre post H R. induction pre as [|q pre IH]; cbn [app pairs_with filter map].
  - rewrite R. reflexivity.
  - rewrite (H q) by (left; auto). rewrite IH by (intros r Hr; apply H; right; auto).
    destruct (pbool _); reflexivity.
Qed.
Lemma overlapping_spec : forall pols, NoDup pols -> apart pols -> (forall p, In p pols -> pok vis (p_selected p)) ->
  (forall p q, In (p, q) (overlapping A rid pols) <-> earlier q p pols /\ common p q) /\ NoDup (overlapping A rid pols).
Proof using.
  intros pols N AP Kp. unfold overlapping.
  assert (PW : forall p pre post, pols = pre ++ p :: post ->
    pairs_with A rid p pols = map (fun q => (p, q)) (filter (fun q => pbool (pinter (p_selected p) (p_selected q))) pre)).
  { intros p pre post E. rewrite E at 1. apply pairs_with_spec.
    - intros q Hq. destruct (policy_eqb p q) eqn:Eq; auto. apply AP in Eq; [|rewrite E; apply in_or_app; simpl; auto|rewrite E; apply in_or_app; auto].
      subst q. rewrite E in N. apply NoDup_remove_2 in N. exfalso. apply N. apply in_or_app. auto.
    - apply AP; auto; rewrite E; apply in_or_app; simpl; auto. }
  assert (IN : forall x p q, In x pols -> In (p, q) (if pbool (p_selected x) then pairs_with A rid x pols else []) ->
               p = x /\ earlier q p pols /\ common p q).
  { intros x p q Hx H. destruct (pbool (p_selected x)); [|destruct H]. pose proof Hx as Hx'. apply in_split in Hx as (pre & post & E).
    rewrite (PW x pre post E) in H. apply in_map_iff in H as (q' & Eq & H). injection Eq as <- <-. apply filter_In in H as [H1 H2].
    split; auto. split.
    - apply in_split in H1 as (l1 & l2 & ->). exists l1, l2, post. rewrite E, <- app_assoc. reflexivity.
    - apply (pinter_bool vis) in H2; auto. apply Kp. rewrite E. apply in_or_app; auto. }
  split.
  - intros p q. rewrite in_flat_map. split.
    + intros (x & Hx & H). destruct (IN x p q Hx H) as (_ & H'). exact H'.
    + intros ((l1 & l2 & l3 & E) & (x & X1 & X2)). assert (Hp : In p pols) by (rewrite E; apply in_or_app; right; right; apply in_or_app; simpl; auto).
      assert (Hq : In q pols) by (rewrite E; apply in_or_app; simpl; auto).
      exists p. split; auto. destruct (p_selected p) eqn:Es; [destruct x; cbn [pt_in] in X1; [destruct X1|destruct X1 as (l & [] & _)]|]. cbn [pbool]. rewrite <- Es in *.
      rewrite (PW p (l1 ++ q :: l2) l3) by (rewrite E, <- app_assoc; reflexivity). apply in_map_iff. exists q. split; auto.
      apply filter_In. split; [apply in_or_app; simpl; auto|]. apply (pinter_bool vis); auto. exists x; auto.
  - apply NoDup_flat; auto.
    + intros x Hx. destruct (pbool (p_selected x)); [|constructor]. pose proof Hx as Hx'. apply in_split in Hx as (pre & post & E). rewrite (PW x pre post E).
      apply FinFun.Injective_map_NoDup; [intros a b H; congruence|]. apply NoDup_filter. rewrite E in N.
      clear - N. induction pre as [|y pre IH]; [constructor|]. cbn [app] in N. inversion N; subst. constructor; auto. intro H. apply H1. apply in_or_app. auto.
    + intros x y [p q] Hx Hy H1 H2. destruct (IN x p q Hx H1) as (-> & _). destruct (IN y x q Hy H2) as (-> & _). reflexivity.
Qed.
Definition overlap (g : config) (p q : policy) : Prop :=
  exists n pols, In (n, pols) (lays (g_pols g)) /\ n <> LK8sGateway /\ n <> LIstioGateway /\ earlier q p pols /\ common p q.
Lemma overlaps_spec : forall (g : config), inv (g_pols g) -> apart (policy_list g) -> (forall p, In p (policy_list g) -> pok vis (p_selected p)) ->
  (forall p q, In (p, q) (overlaps A rid g) <-> overlap g p q) /\ NoDup (overlaps A rid g).
Proof using.
  intros g I AP Kp. unfold overlaps.
  assert (S : forall n pols, In (n, pols) (lays (g_pols g)) ->
    (forall p q, In (p, q) (overlapping A rid pols) <-> earlier q p pols /\ common p q) /\ NoDup (overlapping A rid pols)).
  { intros n pols H. assert (Hs : forall p, In p pols -> In p (policy_list g)) by (intros p Hp; apply (layer_policy g n pols p I H Hp)).
    apply overlapping_spec; [eapply layer_NoDup; eauto| |auto]. intros p q Hp Hq. apply AP; auto. }
  assert (GW : forall n, is_gateway_layer n = false <-> n <> LK8sGateway /\ n <> LIstioGateway).
  { intros []; cbn; intuition discriminate. }
  split.
  - intros p q. rewrite in_flat_map. split.
    + intros ([n pols] & H1 & H2). cbn [fst snd] in H2. destruct (is_gateway_layer n) eqn:G; [destruct H2|]. apply GW in G.
      apply (proj1 (S n pols H1)) in H2. exists n, pols. tauto.
    + intros (n & pols & H1 & H2 & H3 & H4). exists (n, pols). split; auto. cbn [fst snd]. rewrite (proj2 (GW n)) by auto. apply (proj1 (S n pols H1)); auto.
  - apply NoDup_flat; [apply (NoDup_map_inv' fst); apply (inv_layers _ I)| |].
    + intros [n pols] H. cbn [fst snd]. destruct (is_gateway_layer n); [constructor|]. apply (S n pols H).
    + intros [n l] [m k] [p q] H1 H2 H3 H4. cbn [fst snd] in *. destruct (is_gateway_layer n); [destruct H3|]. destruct (is_gateway_layer m); [destruct H4|].
      apply (proj1 (S n l H1)) in H3 as [(l1 & l2 & l3 & E) _]. apply (proj1 (S m k H2)) in H4 as [(k1 & k2 & k3 & F) _].
      assert (X1 : of_layer n q = true) by (apply (layer_policy g n l q I H1); rewrite E; apply in_or_app; simpl; auto).
      assert (X2 : of_layer m q = true) by (apply (layer_policy g m k q I H2); rewrite F; apply in_or_app; simpl; auto).
      unfold of_layer in *. destruct (layer_of_type (p_kind q)) as [o|]; [|discriminate]. apply lname_eqb_eq in X1, X2. subst o m.
      apply (lget_In _ _ _ (inv_layers _ I)) in H1. apply (lget_In _ _ _ (inv_layers _ I)) in H2. congruence.
Qed.

(** ** Emptiness *)
Definition rules (p : policy) (ing : bool) : list rule := if ing then p_ingress p else p_egress p.
(** A rule without peers. *)
Definition no_peers (p : policy) (r : rule) : Prop :=
  match class_of (p_kind p) with
  | CCalico => (forall x, ~ pt_in x (r_src r)) \/ (forall x, ~ pt_in x (r_dst r))
  | _ => forall x, ~ pt_in x (r_src r)
  end.
(** The rules the query looks at. *)
Definition looked_at (p : policy) (ing : bool) : Prop :=
  match class_of (p_kind p) with CIstioAP => ing = true | CSidecar => ing = false | CBase => False | _ => True end.
Lemma empty_from_spec : forall c (rs : list rule) i k, In k (empty_from c i rs) <-> exists j r, k = i + j /\ nth_error rs j = Some r /\ rule_empty c r = true.
Proof using.
  intros c. induction rs as [|r rs IH]; intros i k; cbn [empty_from].
  - split; [intros []|]. intros (j & r & _ & H & _). destruct j; discriminate.
  - assert (T : In k (empty_from c (S i) rs) <-> exists j s, k = i + S j /\ nth_error (r :: rs) (S j) = Some s /\ rule_empty c s = true).
    { rewrite IH. split; intros (j & s & H1 & H2 & H3); exists j, s; repeat split; auto; lia. }
    destruct (rule_empty c r) eqn:E; cbn [In]; rewrite T; split.
    + intros [<-|(j & s & H)]; [exists 0, r; repeat split; auto; lia|exists (S j), s; exact H].
    + intros (j & s & H1 & H2 & H3). destruct j as [|j]; [left; lia|right; exists j, s; auto].
    + intros (j & s & H). exists (S j), s. exact H.
    + intros (j & s & H1 & H2 & H3). destruct j as [|j]; [cbn in H2; injection H2 as <-; congruence|exists j, s; auto].
Qed.
Lemma empty_rules_spec : forall p ing k, (forall r, In r (rules p ing) -> no_void (r_src r) /\ no_void (r_dst r)) ->
  (In k (empty_rules p ing) <-> looked_at p ing /\ exists r, 1 <= k /\ nth_error (rules p ing) (k - 1) = Some r /\ no_peers p r).
Proof using.
  clear rid. intros p ing k NV.
  assert (E : forall r, In r (rules p ing) -> (rule_empty (class_of (p_kind p)) r = true <-> no_peers p r)).
  { intros r Hr. destruct (NV r Hr) as [V1 V2]. apply bool_void in V1, V2. unfold rule_empty, no_peers.
    destruct (class_of (p_kind p)); rewrite ?orb_true_iff, ?negb_true_iff; tauto. }
  assert (G : In k (empty_from (class_of (p_kind p)) 1 (rules p ing)) <->
              exists r, 1 <= k /\ nth_error (rules p ing) (k - 1) = Some r /\ no_peers p r).
  { rewrite empty_from_spec. split.
    - intros (j & r & -> & H1 & H2). exists r. split; [lia|]. replace (1 + j - 1) with j by lia. split; auto. apply E; auto. eapply nth_error_In; eauto.
    - intros (r & H1 & H2 & H3). exists (k - 1), r. split; [lia|]. split; auto. apply E; auto. eapply nth_error_In; eauto. }
  unfold empty_rules, looked_at. unfold rules in *. destruct (class_of (p_kind p)), ing; cbn [In]; try tauto; intuition discriminate.
Qed.
(** What is counted. *)
Definition selects_nothing (p : policy) : Prop := forall x, ~ pt_in x (p_selected p).
Lemma emptiness_spec : forall (g : config), (forall p, In p (layer_policies g) -> no_void (p_selected p)) ->
  emptiness_count g =
    List.length (filter (fun p => negb (pbool (p_selected p))) (layer_policies g)) +
    List.length (flat_map (fun p => empty_rules p true ++ empty_rules p false) (layer_policies g)) /\
  forall p, In p (layer_policies g) -> (negb (pbool (p_selected p)) = true <-> selects_nothing p).
Proof using.
  intros g NV. split.
  - unfold emptiness_count. assert (G : forall (l : list policy) n, fold_left (fun n p => n + (if pbool (p_selected p) then 0 else 1) + List.length (empty_rules p true) + List.length (empty_rules p false)) l n =
      n + (List.length (filter (fun p => negb (pbool (p_selected p))) l) + List.length (flat_map (fun p => empty_rules p true ++ empty_rules p false) l))).
    { induction l as [|p l IH]; intros n; cbn [fold_left filter flat_map]; [cbn; lia|]. rewrite IH, !app_length. destruct (pbool (p_selected p)); cbn [negb List.length]; lia. }
    rewrite G. reflexivity.
  - intros p Hp. rewrite negb_true_iff. apply bool_void. auto.
Qed.
Lemma emptiness_iff : forall (g : config), (forall p, In p (layer_policies g) -> no_void (p_selected p) /\ forall r, In r (p_ingress p ++ p_egress p) -> no_void (r_src r) /\ no_void (r_dst r)) ->
  (a_bool (@emptiness C g) = true <-> exists p, In p (layer_policies g) /\
     (selects_nothing p \/ exists ing r, looked_at p ing /\ In r (rules p ing) /\ no_peers p r)).
Proof using.
  intros g NV. destruct (emptiness_spec g) as [E Sn]; [intros p Hp; apply (NV p Hp)|]. unfold emptiness. cbn [a_bool]. rewrite E, Nat.ltb_lt.
  assert (R : forall p ing r, In p (layer_policies g) -> In r (rules p ing) -> no_void (r_src r) /\ no_void (r_dst r)).
  { intros p ing r Hp Hr. apply (NV p Hp). apply in_or_app. unfold rules in Hr. destruct ing; auto. }
  split.
  - intros H. destruct (filter _ _) as [|p l] eqn:F.
    + destruct (flat_map _ _) as [|k l] eqn:F2; [cbn in H; lia|]. assert (X : In k (k :: l)) by (left; auto). rewrite <- F2 in X.
      apply in_flat_map in X as (p & Hp & X). exists p. split; auto. right. apply in_app_iff in X.
      destruct X as [X|X]; (apply empty_rules_spec in X; [|intros r Hr; eapply R; eauto]); destruct X as (X1 & r & _ & X2 & X3); [exists true, r|exists false, r]; (split; [auto|split; [eapply nth_error_In; eauto|auto]]).
    + assert (X : In p (p :: l)) by (left; auto). rewrite <- F in X. apply filter_In in X as [X1 X2]. exists p. split; auto. left. apply Sn; auto.
  - intros (p & Hp & [H|(ing & r & H1 & H2 & H3)]).
    + apply Sn in H; auto. assert (X : In p (filter (fun p => negb (pbool (p_selected p))) (layer_policies g))) by (apply filter_In; auto).
      destruct (filter _ _); [destruct X|cbn; lia].
    + apply In_nth_error in H2 as (j & Hj).
      assert (X : In (S j) (empty_rules p ing)).
      { apply empty_rules_spec; [intros s Hs; eapply R; eauto|]. split; auto. exists r. split; [lia|]. replace (S j - 1) with j by lia. auto. }
      assert (Y : In (S j) (flat_map (fun p => empty_rules p true ++ empty_rules p false) (layer_policies g))).
      { apply in_flat_map. exists p. split; auto. apply in_or_app. destruct ing; auto. }
      destruct (flat_map _ _); [destruct Y|cbn; lia].
Qed.

(** ** All-captured *)
Context (pod_name : peer -> string).
Lemma dedup_In : forall l s, In s (dedup l) <-> In s l.
Proof using.
  induction l as [|a l IH]; intros s; [reflexivity|]. cbn [dedup]. destruct (existsb (String.eqb a) l) eqn:E.
  - rewrite IH. cbn [In]. split; [auto|]. intros [->|H]; auto. apply existsb_exists in E as (x & Hx & E). apply String.eqb_eq in E. subst. auto.
  - cbn [In]. rewrite IH. reflexivity.
Qed.
Lemma dedup_NoDup : forall l, NoDup (dedup l).
Proof using.
  induction l as [|a l IH]; [constructor|]. cbn [dedup]. destruct (existsb (String.eqb a) l) eqn:E; auto. constructor; auto.
  rewrite dedup_In. intro H. assert (X : existsb (String.eqb a) l = true) by (apply existsb_exists; exists a; split; auto; apply String.eqb_refl). congruence.
Qed.
Definition affects (p : policy) (ing : bool) : Prop := (if ing then p_affects_in p else p_affects_eg p) = true.
Lemma affected_spec : forall (g : config) ing pols, (forall p, In p pols -> pok vis (p_selected p)) ->
  pok vis (affected_pods g ing pols) /\ forall x, pt_in x (affected_pods g ing pols) <-> exists p, In p pols /\ affects p ing /\ pt_in x (p_selected p).
Proof using.
  clear rid. intros g ing pols Kp. unfold affected_pods.
  assert (G : forall l r, (forall p, In p l -> In p pols) -> pok vis r ->
    let f := fold_left (fun r p => if (if ing then p_affects_in p else p_affects_eg p) then ps_union r (p_selected p) else r) l r in
    pok vis f /\ forall x, pt_in x f <-> pt_in x r \/ exists p, In p l /\ affects p ing /\ pt_in x (p_selected p)).
  { induction l as [|p l IH]; intros r Hl Kr; cbv zeta; cbn [fold_left].
    - split; auto. intros x. split; [auto|]. intros [H|(p & [] & _)]; auto.
    - assert (Hl' : forall q, In q l -> In q pols) by (intros q Hq; apply Hl; simpl; auto).
      destruct (if ing then p_affects_in p else p_affects_eg p) eqn:E.
      + destruct (IH (ps_union r (p_selected p)) Hl') as [I1 I2]; [apply pok_union; auto; apply Kp; apply Hl; simpl; auto|].
        split; auto. intros x. rewrite I2, union_In. split.
        * intros [[X|X]|(q & Hq & X)]; [auto|right; exists p; simpl; unfold affects; auto|right; exists q; simpl; tauto].
        * intros [X|(q & [<-|Hq] & X1 & X2)]; [auto|auto|right; exists q; auto].
      + destruct (IH r Hl' Kr) as [I1 I2]. split; auto. intros x. rewrite I2. split.
        * intros [X|(q & Hq & X)]; [auto|right; exists q; simpl; tauto].
        * intros [X|(q & [<-|Hq] & X1 & X2)]; [auto|unfold affects in X1; congruence|right; exists q; auto]. }
  destruct (G pols []) as [G1 G2]; auto; [apply pok_nil|]. split; auto. intros x. rewrite G2. split; [|auto].
  intros [X|X]; auto. exfalso. destruct x; cbn [pt_in] in X; [destruct X|destruct X as (l & [] & _)].
Qed.
Definition captured_in (g : config) (pols : list policy) (ing : bool) : Prop :=
  forall x, pod (g_peers g) x -> exists p, In p pols /\ affects p ing /\ pt_in x (p_selected p).
Lemma uncaptured_spec : forall (g : config) pols ing, container vis (g_peers g) -> (forall p, In p pols -> pok vis (p_selected p)) ->
  (List.length (uncaptured pod_name g pols ing) = 0 <-> captured_in g pols ing).
Proof using.
  intros g pols ing HC Kp. destruct (affected_spec g ing pols Kp) as [K1 K2]. destruct (peers_group_spec vis (g_peers g) false false HC) as [G1 G2].
  pose proof (psub_bool vis _ _ G1 K1) as B. unfold uncaptured.
  set (s := psub _ _) in *. clearbody s.
  assert (E : List.length (dedup (map pod_name s)) = 0 <-> pbool s = false).
  { destruct s as [|p s]; [cbn; tauto|]. split; [|discriminate]. intros H. exfalso. pose proof (dedup_In (map pod_name (p :: s)) (pod_name p)) as D.
    destruct (dedup _); [|discriminate]. apply D. left. reflexivity. }
  rewrite E. unfold captured_in.
  assert (D : forall x, (exists p, In p pols /\ affects p ing /\ pt_in x (p_selected p)) \/ ~ (exists p, In p pols /\ affects p ing /\ pt_in x (p_selected p))).
  { intros x. rewrite <- K2. apply pt_in_dec. }
  split.
  - intros Hb x Hx. destruct (D x) as [X|X]; auto. exfalso. assert (Y : pbool s = true); [|congruence]. apply B. exists x. rewrite G2, K2.
    split; [left; split; [apply Hx|]; right; apply Hx|auto].
  - intros H. destruct (pbool s) eqn:Eb; auto. exfalso. destruct (proj1 B eq_refl) as (x & X1 & X2). apply X2. apply K2. apply H. apply G2 in X1 as [[X1 X3]|[X1 _]]; [|discriminate].
    split; auto. destruct X3 as [X3|X3]; [discriminate|auto].
Qed.
Lemma all_captured_spec : forall g : config, inv (g_pols g) -> container vis (g_peers g) -> (forall n pols p, In (n, pols) (lays (g_pols g)) -> In p pols -> pok vis (p_selected p)) ->
  (a_bool (@all_captured C pod_name g) = true <->
   policies (g_pols g) <> [] /\ (exists n pols, In (n, pols) (lays (g_pols g)) /\ n <> LK8sGateway /\ n <> LIstioGateway) /\
   (forall pols, lget (lays (g_pols g)) LK8sCalico = Some pols -> captured_in g pols true /\ captured_in g pols false) /\
   (forall pols, lget (lays (g_pols g)) LIstio = Some pols -> captured_in g pols true)).
Proof using.
  intros g I HC Kp. unfold all_captured.
  assert (U : forall n io, uncaptured_by_layer pod_name g n io = 0 <->
     forall pols, lget (lays (g_pols g)) n = Some pols -> captured_in g pols true /\ (io = false -> captured_in g pols false)).
  { intros n io. unfold uncaptured_by_layer. destruct (lget (lays (g_pols g)) n) as [pols|] eqn:E.
    - assert (Kl : forall p, In p pols -> pok vis (p_selected p)) by (intros p Hp; apply (Kp n pols p); auto; apply lget_some_In; auto).
      pose proof (uncaptured_spec g pols true HC Kl) as U1. pose proof (uncaptured_spec g pols false HC Kl) as U2. split.
      + intros H pols' E'. injection E' as <-. split; [apply U1; lia|]. intros ->. apply U2. lia.
      + intros H. destruct (H pols eq_refl) as [H1 H2]. apply U1 in H1. destruct io; [lia|]. specialize (H2 eq_refl). apply U2 in H2. lia.
    - split; auto. intros _ pols H. discriminate. }
  assert (HP : has_policies g = true <-> policies (g_pols g) <> []).
  { unfold has_policies. destruct (policies (g_pols g)); split; try congruence; auto. }
  assert (NE : lays (g_pols g) <> []).
  { intros E. destruct (inv_present _ I) as (p & n & Hp & Hn); [rewrite E; reflexivity|]. pose proof (inv_lists _ I n) as P.
    unfold layer_list in P. rewrite E in P. cbn in P. apply Permutation_nil in P.
    assert (X : In p (filter (of_layer n) (map snd (policies (g_pols g))))) by (apply filter_In; auto). rewrite P in X. destruct X. }
  assert (OG : only_gateway_layers (lays (g_pols g)) = false <-> exists n pols, In (n, pols) (lays (g_pols g)) /\ n <> LK8sGateway /\ n <> LIstioGateway).
  { assert (X : only_gateway_layers (lays (g_pols g)) = forallb (fun l => is_gateway_layer (fst l)) (lays (g_pols g))) by (unfold only_gateway_layers; destruct (lays (g_pols g)) eqn:EE; [exfalso; apply NE; first [reflexivity|exact EE]|reflexivity]).
    rewrite X. clear. induction (lays (g_pols g)) as [|[n pols] k IH]; cbn [forallb fst].
    - split; [discriminate|]. intros (n & pols & [] & _).
    - rewrite andb_false_iff, IH. split.
      + intros [F|(m & q & H & H')].
        * exists n, pols. split; [left; auto|]. destruct n; cbn in F; try discriminate; split; discriminate.
        * exists m, q. split; [right; auto|auto].
      + intros (m & q & [E|H] & H2 & H3); [injection E as -> ->; left; destruct m; try reflexivity; exfalso; auto|right; exists m, q; auto]. }
  destruct (has_policies g) eqn:Eh; cbn [negb orb].
  2:{ cbn [a_bool]. split; [discriminate|]. intros [H _]. apply HP in H. discriminate. }
  destruct (only_gateway_layers (lays (g_pols g))) eqn:Eo.
  { cbn [a_bool]. split; [discriminate|]. intros (_ & H & _). apply OG in H. discriminate. }
  pose proof (U LK8sCalico false) as UK. pose proof (U LIstio true) as UI.
  destruct (uncaptured_by_layer pod_name g LK8sCalico false =? 0) eqn:E1; [apply Nat.eqb_eq in E1|apply Nat.eqb_neq in E1];
  (destruct (uncaptured_by_layer pod_name g LIstio true =? 0) eqn:E2; [apply Nat.eqb_eq in E2|apply Nat.eqb_neq in E2]); cbn [andb a_bool].
  - split; [|auto]. intros _. split; [apply HP; auto|]. split; [apply OG; auto|]. rewrite UK in E1. rewrite UI in E2. split; intros pols H.
    + destruct (E1 pols H) as [X Y]. auto.
    + apply (E2 pols H).
  - split; [discriminate|]. intros (_ & _ & H1 & H2). exfalso. apply E2. apply UI. intros pols H. split; [auto|discriminate].
  - split; [discriminate|]. intros (_ & _ & H1 & H2). exfalso. apply E1. apply UK. intros pols H. destruct (H1 pols H). auto.
  - split; [discriminate|]. intros (_ & _ & H1 & H2). exfalso. apply E1. apply UK. intros pols H. destruct (H1 pols H). auto.
Qed.

(** ** Clones *)
Definition key (p : policy) : string * ptype := (full_name p, p_kind p).
Lemma add_all_keeps : forall (ps : list policy) (c : @pcont C), (forall p, In p ps -> p_kind p <> TUnknown) ->
  NoDup (map fst (policies c) ++ map key ps) -> policies (add_all c ps) = policies c ++ map (fun p => (key p, p)) ps.
Proof using.
  induction ps as [|p ps IH]; intros c K N; cbn [add_all fold_left map]; [rewrite app_nil_r; reflexivity|].
  destruct (proj2 (append_accepts c p)) as (c' & E).
  { split; [apply K; left; auto|]. cbn [map] in N. apply NoDup_remove_2 in N. intro H. apply N. apply in_or_app. auto. }
  rewrite E. fold (add_all c' ps).
  assert (P : policies c' = policies c ++ [(key p, p)]).
  { unfold append_policy in E. destruct (ptype_eqb (p_kind p) TUnknown); [discriminate|]. destruct (existsb _ _); [discriminate|].
    destruct (layers_add _ _ _); [|discriminate]. injection E as <-. reflexivity. }
  rewrite IH, P, <- app_assoc; [reflexivity|intros q Hq; apply K; right; auto|].
  rewrite P, map_app, <- app_assoc. exact N.
Qed.
Lemma list_keys : forall g : config, inv (g_pols g) -> map fst (policies (g_pols g)) = map key (policy_list g) /\ (forall p, In p (policy_list g) -> p_kind p <> TUnknown).
Proof using.
  intros g I. pose proof (inv_names _ I) as H. unfold policy_list. split.
  - clear I. induction (policies (g_pols g)) as [|[k p] l IH]; [reflexivity|]. cbn [map fst snd].
    rewrite (proj1 (H k p (or_introl eq_refl))). unfold key at 1. f_equal. apply IH. intros k' p' H'. apply H. right. auto.
  - intros p Hp. apply in_map_iff in Hp as ([k q] & E & Hp). cbn [snd] in E. subst q. apply (H k p Hp).
Qed.
Lemma filtered_list : forall (g : config) f, inv (g_pols g) -> policy_list (with_policies g (filter f (policy_list g))) = filter f (policy_list g).
Proof using.
  intros g f I. destruct (list_keys g I) as [E K]. unfold policy_list at 1, with_policies. cbn [g_pols].
  rewrite add_all_keeps.
  - cbn [policies pcont_init app]. rewrite map_map. cbn [snd]. apply map_id.
  - intros p Hp. apply filter_In in Hp as [Hp _]. auto.
  - cbn [policies pcont_init map app]. pose proof (inv_keys _ I) as N. rewrite E in N. clear - N.
    induction (policy_list g) as [|p l IH]; [constructor|]. cbn [filter]. inversion N; subst. destruct (f p); cbn [map]; auto. constructor; auto.
    intro H. apply H1. apply in_map_iff in H as (q & Eq & Hq). apply filter_In in Hq as [Hq _]. rewrite <- Eq. apply in_map. auto.
Qed.
Lemma clone_inv : forall (g : config) ps, inv (g_pols (with_policies g ps)).
Proof using. intros g ps. apply inv_add_all. apply inv_init. Qed.

(** ** Redundancy of policies *)
Context (h6 : policy -> bool) (RS : forall r s, rid r s = true -> r = s).
Local Notation layer_allows_in n := (allows_on A src dst tcp cmem (Some n)).
Lemma excl_sub : forall (g1 g2 : config), (forall p, In p (policy_list g2) -> In p (policy_list g1)) -> excl h6 true g1 g2 = excludes6 h6 true g1.
Proof using.
  intros g1 g2 H. unfold excl, excludes6. cbn [andb]. destruct (forallb _ (policy_list g1)) eqn:E; [|reflexivity]. cbn [andb].
  rewrite forallb_forall in E. apply forallb_forall. intros p Hp. apply E. auto.
Qed.
Lemma redundant_spec : forall (g : config) n p, cfg_ok g -> cfg_ok (without_policy A rid g p) -> inv (g_pols g) -> (exists x, pod (g_peers g) x) ->
  In p (policy_list g) -> policy_eqb p p = true ->
  let ex6 := excludes6 h6 true g in
  let same := forall pt, space pt -> rel ex6 pt -> (layer_allows_in n g pt <-> layer_allows_in n (without_policy A rid g p) pt) in
  (redundant A Q h6 rid g n p = true -> same) /\ (ex6 = true -> same -> redundant A Q h6 rid g n p = true).
Proof using L QL NB RS.
  intros g n p K1 K2 I X Hp R. cbv zeta. unfold redundant.
  assert (PL : policy_list (without_policy A rid g p) = filter (fun q => negb (policy_eqb q p)) (policy_list g)) by (apply filtered_list; auto).
  assert (E : excl h6 true g (without_policy A rid g p) = excludes6 h6 true g).
  { apply excl_sub. rewrite PL. intros q Hq. apply filter_In in Hq. apply Hq. }
  assert (S : pdict_eqb A rid (policies (g_pols g)) (policies (g_pols (without_policy A rid g p))) = true -> same_order g (without_policy A rid g p)).
  { intros H. exfalso. unfold pdict_eqb in H. apply andb_true_iff in H as [H _]. apply Nat.eqb_eq in H.
    assert (Z : List.length (policy_list g) = List.length (policy_list (without_policy A rid g p))) by (unfold policy_list; rewrite !map_length; exact H).
    rewrite PL in Z. pose proof (filter_lt (fun q => negb (policy_eqb q p)) (policy_list g) p Hp) as Y. cbv beta in Y. rewrite R in Y. specialize (Y eq_refl). lia. }
  destruct (equivalence_spec A Q src dst tcp space cmem cok csafe vis put L QL NB rid RS h6 true g (without_policy A rid g p) (Some n) K1 K2 X X S) as [_ T].
  specialize (T (conj (fun x => iff_refl _) (fun s => iff_refl _))). destruct T as (_ & _ & T1 & T2 & _). rewrite E in T1, T2.
  split; [intros H; apply (T1 H)|intros H H'; apply T2; auto].
Qed.

(** ** Redundancy of rules *)
(** The policies compared when a rule is dropped: the clone is loaded after the other policies. *)
Definition replaced (g : config) (p m : policy) : config := add_one (without_policy A rid g p) m.
Lemma clone_shorter : forall (p : policy) r ing, In r (rules p ing) -> rule_eqb A rid (class_of (p_kind p)) r r = true ->
  List.length (rules (clone_without_rule A rid p r ing) ing) < List.length (rules p ing).
Proof using.
  intros p r ing H R.
  assert (D : forall l, In r l -> List.length (filter (fun s => negb (rule_eqb A rid (class_of (p_kind p)) s r)) l) < List.length l).
  { intros l Hl. apply (filter_lt _ l r Hl). rewrite R. reflexivity. }
  assert (Z : forall l : list rule, In r l -> 0 < List.length l) by (intros [|x l] []; cbn; lia).
  unfold rules in *. unfold clone_without_rule. destruct ing; cbn [p_ingress p_egress]; destruct (class_of (p_kind p)); auto; apply Z in H; exact H.
Qed.
Lemma list_eqb_len : forall {X} (f : X -> X -> bool) l m, list_eqb f l m = true -> List.length l = List.length m.
Proof using.
  intros X f. induction l as [|x l IH]; intros [|y m] H; cbn [list_eqb] in H; try discriminate; auto.
  apply andb_true_iff in H as [_ H]. cbn [List.length]. auto.
Qed.
Lemma eqb_rules : forall p q : policy, policy_eqb p q = true ->
  List.length (p_ingress p) = List.length (p_ingress q) /\ List.length (p_egress p) = List.length (p_egress q).
Proof using.
  intros p q H. unfold QueryModel.policy_eqb in H. cbv zeta in H. apply andb_true_iff in H as [H _]. apply andb_true_iff in H as [_ H].
  do 2 (apply andb_true_iff in H as [H _]). apply andb_true_iff in H as [H H2]. apply andb_true_iff in H as [_ H1].
  apply list_eqb_len in H1, H2. auto.
Qed.
Lemma rule_redundant_spec : forall (g : config) n (p : policy) ing r, let m := clone_without_rule A rid p r ing in
  cfg_ok g -> cfg_ok (replaced g p m) -> inv (g_pols g) -> (exists x, pod (g_peers g) x) ->
  In p (policy_list g) -> policy_eqb p p = true -> In r (rules p ing) -> rule_eqb A rid (class_of (p_kind p)) r r = true ->
  (forall q, In q (policy_list g) -> key q = key p -> policy_eqb q p = true) -> (h6 m = true -> h6 p = true) ->
  (exists pre post, rules p ing = pre ++ r :: post /\ forall s, In s (pre ++ post) -> rule_eqb A rid (class_of (p_kind p)) s r = false) ->
  class_of (p_kind p) <> CIstioAP \/ ing = true -> class_of (p_kind p) <> CSidecar \/ ing = false ->
  let ex6 := excludes6 h6 true g in
  let same := forall pt, space pt -> rel ex6 pt -> (layer_allows_in n g pt <-> layer_allows_in n (replaced g p m) pt) in
  (rule_redundant A Q h6 rid g n p ing r = true -> same) /\ (ex6 = true -> same -> rule_redundant A Q h6 rid g n p ing r = true).
Proof using L QL NB RS.
  intros g n p ing r m K1 K2 I X Hp R Hr Rr UN H6 (pre & post & ER & UR) C1 C2. cbv zeta. unfold rule_redundant. fold m.
  change (if ing then p_ingress m else p_egress m) with (rules m ing). change (if ing then p_ingress p else p_egress p) with (rules p ing).
  assert (RL : rules m ing = filter (fun s => negb (rule_eqb A rid (class_of (p_kind p)) s r)) (rules p ing)).
  { unfold m, rules, clone_without_rule. destruct ing, (class_of (p_kind p)); cbn [p_ingress p_egress]; auto; exfalso; destruct C1, C2; congruence. }
  assert (LN : List.length (rules p ing) - 1 <= List.length (rules m ing)).
  { assert (G : forall l, (forall s, In s l -> rule_eqb A rid (class_of (p_kind p)) s r = false) ->
      filter (fun s => negb (rule_eqb A rid (class_of (p_kind p)) s r)) l = l).
    { induction l as [|s l IH]; intros U; [reflexivity|]. cbn [filter]. rewrite (U s (or_introl eq_refl)). cbn [negb]. f_equal. apply IH. intros t Ht. apply U. right. exact Ht. }
    rewrite RL, ER, filter_app. cbn [filter]. rewrite Rr. cbn [negb].
    rewrite !G by (intros s Hs; apply UR; apply in_or_app; auto). rewrite !app_length. cbn [List.length]. lia. }
  destruct (List.length (rules m ing) <? List.length (rules p ing) - 1) eqn:Elt; [apply Nat.ltb_lt in Elt; lia|]. clear Elt.
  assert (PL : policy_list (without_policy A rid g p) = filter (fun q => negb (policy_eqb q p)) (policy_list g)) by (apply filtered_list; auto).
  assert (KM : key m = key p) by reflexivity.
  assert (IW : inv (g_pols (without_policy A rid g p))) by apply clone_inv.
  assert (PR : policies (g_pols (replaced g p m)) = policies (g_pols (without_policy A rid g p)) ++ [(key m, m)]).
  { unfold replaced, add_one. cbn [g_pols]. destruct (proj2 (append_accepts (g_pols (without_policy A rid g p)) m)) as (c' & E).
    - destruct (list_keys g I) as [_ LK]. split; [apply (LK p Hp)|]. destruct (list_keys _ IW) as [E _]. rewrite E, PL.
      intro H. apply in_map_iff in H as (q & E1 & H). apply filter_In in H as [H1 H2]. change (full_name m, p_kind m) with (key m) in E1. rewrite KM in E1.
      rewrite (UN q H1 E1) in H2. discriminate.
    - rewrite E. apply (inv_append _ _ _ IW E). }
  assert (PL2 : policy_list (replaced g p m) = filter (fun q => negb (policy_eqb q p)) (policy_list g) ++ [m]).
  { unfold policy_list at 1. rewrite PR, map_app. cbn [map snd]. rewrite <- PL. reflexivity. }
  assert (E : excl h6 true g (replaced g p m) = excludes6 h6 true g).
  { unfold excl. destruct (excludes6 h6 true g) eqn:E; [|reflexivity]. cbn [andb]. unfold excludes6 in *. cbn [andb] in *. rewrite forallb_forall in E. apply forallb_forall.
    rewrite PL2. intros q Hq. apply in_app_iff in Hq as [Hq|[<-|[]]]; [apply filter_In in Hq as [Hq _]; auto|].
    destruct (h6 m) eqn:Em; auto. specialize (E p Hp). rewrite (H6 eq_refl) in E. exact E. }
  assert (S : pdict_eqb A rid (policies (g_pols g)) (policies (g_pols (replaced g p m))) = true -> same_order g (replaced g p m)).
  { intros H. exfalso. unfold pdict_eqb in H. apply andb_true_iff in H as [_ H]. rewrite forallb_forall in H.
    assert (Hk : In (key p, p) (policies (g_pols g))).
    { unfold policy_list in Hp. apply in_map_iff in Hp as ([k q] & Eq & Hq). cbn [snd] in Eq. subst q. pose proof (inv_names _ I k p Hq) as [-> _]. exact Hq. }
    apply H in Hk. cbn [fst snd] in Hk. destruct (pfind (policies (g_pols (replaced g p m))) (key p)) as [q|] eqn:F; [|discriminate].
    unfold pfind in F. destruct (find _ _) as [[k q']|] eqn:F2; [|discriminate]. cbn [snd] in F. injection F as ->. apply find_some in F2 as [F2 F3].
    cbn [fst] in F3. apply key_eqb_eq in F3. subst k. rewrite PR in F2. apply in_app_iff in F2 as [F2|[F2|[]]].
    - pose proof (inv_names _ IW _ _ F2) as [Ek _]. change (full_name q, p_kind q) with (key q) in Ek.
      assert (Hq : In q (policy_list (without_policy A rid g p))) by (unfold policy_list; apply in_map_iff; exists (key p, q); auto).
      rewrite PL in Hq. apply filter_In in Hq as [H1 H2]. rewrite (UN q H1 (eq_sym Ek)) in H2. discriminate.
    - apply (f_equal snd) in F2. cbn [snd] in F2. subst q. pose proof (clone_shorter p r ing Hr Rr) as SH. fold m in SH. apply eqb_rules in Hk as [A1 A2].
      clearbody m. unfold rules in SH. destruct ing; rewrite ?A1, ?A2 in SH; exact (Nat.lt_irrefl _ SH). }
  destruct (equivalence_spec A Q src dst tcp space cmem cok csafe vis put L QL NB rid RS h6 true g (replaced g p m) (Some n) K1 K2 X X S) as [_ T].
  specialize (T (conj (fun x => iff_refl _) (fun s => iff_refl _))). destruct T as (_ & _ & T1 & T2 & _). rewrite E in T1, T2.
  split; [intros H; apply (T1 H)|intros H H'; apply T2; auto].
Qed.

(** A rule with an equal twin is reported without a comparison; sound where the rules are united. *)
Lemma twin_covers : forall (p : policy) r ing pre post, class_of (p_kind p) <> CSidecar -> (forall s, In s (rules p ing) -> cok (r_props s)) ->
  rules p ing = pre ++ r :: post ->
  (List.length (rules (clone_without_rule A rid p r ing) ing) <? List.length (rules p ing) - 1) = true ->
  class_of (p_kind p) <> CIstioAP \/ ing = true ->
  forall pt, space pt -> ((exists s, In s (rules p ing) /\ cmem pt (r_props s)) <-> (exists s, In s (pre ++ post) /\ cmem pt (r_props s))).
Proof using L.
  clear h6 pod_name. intros p r ing pre post NS K E H C1 pt Sp.
  assert (RL : rules (clone_without_rule A rid p r ing) ing = filter (fun s => negb (rule_eqb A rid (class_of (p_kind p)) s r)) (rules p ing)).
  { unfold rules, clone_without_rule. destruct ing, (class_of (p_kind p)); cbn [p_ingress p_egress]; auto; exfalso; first [congruence|destruct C1; congruence]. }
  rewrite RL in H. clear RL. apply Nat.ltb_lt in H.
  assert (Hr : In r (rules p ing)) by (rewrite E; apply in_or_app; simpl; auto).
  assert (T : exists s, In s (pre ++ post) /\ rule_eqb A rid (class_of (p_kind p)) s r = true).
  { destruct (existsb (fun s => rule_eqb A rid (class_of (p_kind p)) s r) (pre ++ post)) eqn:X.
    - apply existsb_exists in X as (s & Hs). exists s. exact Hs.
    - exfalso. rewrite existsb_false in X. rewrite E in H. rewrite filter_app in H. cbn [filter] in H.
      assert (F : forall l, (forall s, In s l -> rule_eqb A rid (class_of (p_kind p)) s r = false) ->
                  filter (fun s => negb (rule_eqb A rid (class_of (p_kind p)) s r)) l = l).
      { induction l as [|s l IH]; intros Y; [reflexivity|]. cbn [filter]. rewrite (Y s) by (left; auto). cbn [negb]. f_equal. apply IH. intros t Ht. apply Y. right. auto. }
      rewrite (F pre), (F post) in H by (intros s Hs; apply X; apply in_or_app; auto).
      destruct (negb _) in H; rewrite !app_length in H; cbn [List.length] in H; lia. }
  destruct T as (s & Hs & Es). assert (Hs' : In s (rules p ing)) by (rewrite E; apply in_app_iff in Hs; apply in_or_app; cbn [In]; tauto).
  assert (M : cmem pt (r_props s) <-> cmem pt (r_props r)).
  { assert (X : c_eqb A (r_props s) (r_props r) = true).
    { unfold rule_eqb in Es. destruct (class_of (p_kind p)); try congruence. apply andb_true_iff in Es as [Es _]. exact Es. }
    apply (law l_eqb _ _ (K s Hs') (K r Hr) X pt Sp). }
  split; intros (t & Ht & Mt).
  - rewrite E in Ht. apply in_app_iff in Ht as [Ht|[<-|Ht]]; [exists t|exists s|exists t]; (split; [|tauto]); auto; apply in_or_app; auto.
  - exists t. split; auto. rewrite E. apply in_app_iff in Ht. apply in_or_app. cbn [In]. tauto.
Qed.

(** ** The redundancy query *)
Lemma indices_spec : forall {X} (f : X -> bool) l i k, In k (indices_from f i l) <-> exists j x, k = i + j /\ nth_error l j = Some x /\ f x = true.
Proof using.
  intros X f. induction l as [|x l IH]; intros i k; cbn [indices_from].
  - split; [intros []|]. intros (j & y & _ & H & _). destruct j; discriminate.
  - assert (T : In k (indices_from f (S i) l) <-> exists j s, k = i + S j /\ nth_error (x :: l) (S j) = Some s /\ f s = true).
    { rewrite IH. split; intros (j & s & H1 & H2 & H3); exists j, s; repeat split; auto; lia. }
    destruct (f x) eqn:E; cbn [In]; rewrite T; split.
    + intros [<-|(j & s & H)]; [exists 0, x; repeat split; auto; lia|exists (S j), s; exact H].
    + intros (j & s & H1 & H2 & H3). destruct j as [|j]; [left; lia|right; exists j, s; auto].
    + intros (j & s & H). exists (S j), s. exact H.
    + intros (j & s & H1 & H2 & H3). destruct j as [|j]; [cbn in H2; injection H2 as <-; congruence|exists j, s; auto].
Qed.
Lemma indices_NoDup : forall {X} (f : X -> bool) l i, NoDup (indices_from f i l).
Proof using.
  intros X f. induction l as [|x l IH]; intros i; cbn [indices_from]; [constructor|]. destruct (f x); auto. constructor; auto.
  intro H. apply indices_spec in H as (j & y & H & _). lia.
Qed.
(** What one layer contributes to the count. *)
Definition names_in (g : config) (n : lname) (pols : list policy) : list string := redundant_policies A Q h6 rid g pols n.
Definition rules_in (g : config) (n : lname) (pols : list policy) : list (policy * list nat * list nat) :=
  map (fun p => (p, redundant_rules A Q h6 rid g n p true, redundant_rules A Q h6 rid g n p false))
      (filter (fun p => negb (existsb (String.eqb (full_name p)) (names_in g n pols))) pols).
Lemma state_spec : forall g : config, let st := redundancy_state A Q h6 rid g in
  red_count st = list_sum (map (fun l => if is_gateway_layer (fst l) then 0 else
    List.length (names_in g (fst l) (snd l)) + list_sum (map (fun r => List.length (snd (fst r)) + List.length (snd r)) (rules_in g (fst l) (snd l)))) (lays (g_pols g))) /\
  red_rules st = flat_map (fun l => if is_gateway_layer (fst l) then [] else rules_in g (fst l) (snd l)) (lays (g_pols g)) /\
  red_listed st = fold_left (fun acc l => if is_gateway_layer (fst l) then acc else names_in g (fst l) (snd l)) (lays (g_pols g)) [].
Proof using.
  intros g. cbv zeta. unfold redundancy_state.
  assert (S : forall rs n, fold_left (fun n r => n + List.length (snd (fst r)) + List.length (snd r)) rs n =
              n + list_sum (map (fun r : policy * list nat * list nat => List.length (snd (fst r)) + List.length (snd r)) rs)).
  { induction rs as [|r rs IH]; intros n; [cbn; lia|]. cbn [fold_left map list_sum fold_right]. rewrite IH. unfold list_sum. lia. }
  assert (G : forall ls st, red_count (fold_left (red_layer A Q h6 rid g) ls st) = red_count st + list_sum (map (fun l => if is_gateway_layer (fst l) then 0 else
    List.length (names_in g (fst l) (snd l)) + list_sum (map (fun r => List.length (snd (fst r)) + List.length (snd r)) (rules_in g (fst l) (snd l)))) ls) /\
    red_rules (fold_left (red_layer A Q h6 rid g) ls st) = red_rules st ++ flat_map (fun l => if is_gateway_layer (fst l) then [] else rules_in g (fst l) (snd l)) ls /\
    red_listed (fold_left (red_layer A Q h6 rid g) ls st) = fold_left (fun acc l => if is_gateway_layer (fst l) then acc else names_in g (fst l) (snd l)) ls (red_listed st)).
  { induction ls as [|l ls IH]; intros st; cbn [fold_left map flat_map].
    - rewrite app_nil_r. cbn. repeat split; auto.
    - destruct (IH (red_layer A Q h6 rid g st l)) as (I1 & I2 & I3). rewrite I1, I2, I3. unfold red_layer at 1 2 3.
      destruct (is_gateway_layer (fst l)); [repeat split; auto|]. cbn [red_count red_rules red_listed]. fold (names_in g (fst l) (snd l)).
      fold (rules_in g (fst l) (snd l)). rewrite S. split; [unfold list_sum; cbn [fold_right]; lia|]. split; [rewrite <- app_assoc; reflexivity|reflexivity]. }
  destruct (G (lays (g_pols g)) (Red 0 [] [])) as (G1 & G2 & G3). rewrite G1, G2, G3. cbn [red_count red_rules red_listed app]. auto.
Qed.
Lemma names_spec : forall (g : config) n pols s, In s (names_in g n pols) <-> 1 < List.length pols /\ exists p, In p pols /\ full_name p = s /\ redundant A Q h6 rid g n p = true.
Proof using.
  intros g n pols s. unfold names_in, redundant_policies. destruct (1 <? List.length pols) eqn:E; [apply Nat.ltb_lt in E|apply Nat.ltb_ge in E].
  - rewrite dedup_In, in_map_iff. split.
    + intros (p & H1 & H2). apply filter_In in H2 as [H2 H3]. split; auto. exists p. auto.
    + intros (_ & p & H1 & H2 & H3). exists p. split; auto. apply filter_In. auto.
  - split; [intros []|]. intros [H _]. lia.
Qed.
(** The layers the query looks at. *)
Definition in_scope (g : config) (n : lname) (pols : list policy) : Prop :=
  In (n, pols) (lays (g_pols g)) /\ n <> LK8sGateway /\ n <> LIstioGateway.
Lemma redundancy_iff : forall g : config,
  (a_bool (redundancy A Q h6 rid g) = true <->
   (exists n pols p, in_scope g n pols /\ 1 < List.length pols /\ In p pols /\ redundant A Q h6 rid g n p = true) \/
   (exists n pols p ing r, in_scope g n pols /\ In p pols /\ In r (rules p ing) /\ rule_redundant A Q h6 rid g n p ing r = true)).
Proof using.
  intros g. destruct (state_spec g) as (SC & SR & _). unfold redundancy.
  assert (GW : forall n, is_gateway_layer n = false <-> n <> LK8sGateway /\ n <> LIstioGateway) by (intros []; cbn; intuition discriminate).
  assert (LS : forall l, 0 < list_sum l <-> exists k, In k l /\ 0 < k).
  { induction l as [|k l IH]; cbn [list_sum fold_right].
    - split; [lia|]. intros (k & [] & _).
    - fold (list_sum l). split.
      + intros H. destruct k as [|k]; [|exists (S k); split; [left; auto|lia]]. destruct IH as [IH _]. destruct IH as (j & Hj & J); [unfold list_sum in *; lia|]. exists j. split; [right; auto|auto].
      + intros (j & [->|Hj] & J); [lia|]. assert (0 < list_sum l) by (apply IH; eauto). unfold list_sum in *. lia. }
  assert (LI : forall {X} (l : list X), 0 < List.length l <-> exists x, In x l).
  { intros X [|x l]; cbn [List.length]; [split; [lia|intros (x & [])]|]. split; [|lia]. intros _. exists x. left. auto. }
  assert (RR : forall n p ing k, In k (redundant_rules A Q h6 rid g n p ing) -> exists r, In r (rules p ing) /\ rule_redundant A Q h6 rid g n p ing r = true).
  { intros n p ing k H. unfold redundant_rules in H. apply indices_spec in H as (j & r & _ & H1 & H2). exists r. split; auto. unfold rules. eapply nth_error_In; eauto. }
  assert (B : a_bool (if 0 <? red_count (redundancy_state A Q h6 rid g) then Answer true (Z.of_nat (red_count (redundancy_state A Q h6 rid g))) false [] else @Answer C false 0 false []) = true <->
              0 < red_count (redundancy_state A Q h6 rid g)).
  { destruct (0 <? _) eqn:E; cbn [a_bool]; [apply Nat.ltb_lt in E|apply Nat.ltb_ge in E]; split; auto; [discriminate|lia]. }
  rewrite B, SC, LS. split.
  - intros (k & Hk & K0). apply in_map_iff in Hk as ([n pols] & <- & Hl). cbn [fst snd] in K0. destruct (is_gateway_layer n) eqn:G; [lia|]. apply GW in G.
    destruct (names_in g n pols) as [|s l] eqn:Nm.
    + cbn [List.length plus] in K0. apply LS in K0 as (k & Hk & K0). apply in_map_iff in Hk as ([[p i1] i2] & <- & Hk). cbn [fst snd] in K0.
      unfold rules_in in Hk. apply in_map_iff in Hk as (p' & Eq & Hp). injection Eq as -> <- <-. apply filter_In in Hp as [Hp _]. right.
      destruct (redundant_rules A Q h6 rid g n p true) as [|k l] eqn:E1.
      * cbn [List.length plus] in K0. apply LI in K0 as (k & Hk). apply RR in Hk as (r & Hr1 & Hr2). exists n, pols, p, false, r. unfold in_scope. auto.
      * assert (Hk : In k (redundant_rules A Q h6 rid g n p true)) by (rewrite E1; left; auto). apply RR in Hk as (r & Hr1 & Hr2). exists n, pols, p, true, r. unfold in_scope. auto.
    + assert (Hs : In s (names_in g n pols)) by (rewrite Nm; left; auto). apply names_spec in Hs as (H1 & p & H2 & _ & H3). left. exists n, pols, p. unfold in_scope. auto.
  - assert (GO : forall n pols p, in_scope g n pols -> In p pols -> 1 < List.length pols -> redundant A Q h6 rid g n p = true ->
      0 < List.length (names_in g n pols)).
    { intros n pols p S Hp H1 H2. apply LI. exists (full_name p). apply names_spec. split; auto. exists p. auto. }
    intros [(n & pols & p & S & H1 & H2 & H3)|(n & pols & p & ing & r & S & Hp & Hr & H)].
    + eexists. split; [apply in_map_iff; exists (n, pols); split; [reflexivity|apply S]|]. cbn [fst snd]. rewrite (proj2 (GW n)) by apply S.
      pose proof (GO n pols p S H2 H1 H3). lia.
    + eexists. split; [apply in_map_iff; exists (n, pols); split; [reflexivity|apply S]|]. cbn [fst snd]. rewrite (proj2 (GW n)) by apply S.
      destruct (existsb (String.eqb (full_name p)) (names_in g n pols)) eqn:E.
      * apply existsb_exists in E as (s & E & _). assert (0 < List.length (names_in g n pols)) by (apply LI; eauto). lia.
      * match goal with |- 0 < _ + ?x => assert (0 < x) as Z; [|lia] end. apply LS.
        assert (IX : exists k, In k (redundant_rules A Q h6 rid g n p ing)).
        { apply In_nth_error in Hr as (j & Hj). exists (1 + j). unfold redundant_rules. apply indices_spec. exists j, r. auto. }
        eexists. split; [apply in_map_iff; exists (p, redundant_rules A Q h6 rid g n p true, redundant_rules A Q h6 rid g n p false); split; [reflexivity|]|].
        -- unfold rules_in. apply in_map_iff. exists p. split; auto. apply filter_In. split; auto. rewrite E. reflexivity.
        -- cbn [fst snd]. apply LI in IX. destruct ing; lia.
Qed.

(** ** Vacuity *)
Local Notation allows := (allows A cmem).
Local Notation settled := (settled A space cmem).
Lemma no_policies_ok : forall g : config, container vis (g_peers g) -> cfg_ok (no_policies g) /\ settled (no_policies g) /\
  forall pt, space pt -> possible (src pt) (dst pt) -> anywhere (g_peers g) (src pt) -> anywhere (g_peers g) (dst pt) ->
    (allows (no_policies g) pt <-> ~ named_hep (src pt) /\ ~ named_hep (dst pt)).
Proof using L.
  intros g HC.
  assert (K : cfg_ok (no_policies g)).
  { split; [exact HC|]. split.
    - intros n pols [E|[]]. injection E as <- <-. split; apply layer_ok_nil.
    - intros n pols [E|[]]. injection E as <- <-. apply stays_nil. }
  split; auto. split.
  - right. exists LK8sCalico, []. split; auto.
  - intros pt Sp Ps As Ad. rewrite (default_allows A src dst tcp space cmem cok csafe vis L (no_policies g) pt); auto.
    + split.
      * intros [H _]. apply H. right. exists LK8sCalico, []. split; [left; auto|auto].
      * intros H. split; auto. intros (n & pols & [E|[]] & F). injection E as <- <-. destruct F; discriminate.
    + intros n pols p [E|[]]. injection E as <- <-. intros [].
    + intros (p & [] & _).
    + intros (p & [] & _).
Qed.
Lemma gateways_loaded : forall g : config, loaded g -> loaded (without_gateways g).
Proof using. intros g H. unfold without_gateways. destruct (_ || _); auto. apply loaded_any. Qed.
Lemma vacuity_spec : forall g : config, container vis (g_peers g) -> cfg_ok (without_gateways g) -> settled (without_gateways g) -> loaded g ->
  let ex6 := excludes6 h6 true (without_gateways g) in
  let same := forall pt, space pt -> rel ex6 pt -> (allows (without_gateways g) pt <-> allows (no_policies g) pt) in
  (a_bool (vacuity A Q h6 rid g) = true -> same) /\ (ex6 = true -> same -> a_bool (vacuity A Q h6 rid g) = true) /\
  a_num (vacuity A Q h6 rid g) = bz (a_bool (vacuity A Q h6 rid g)).
Proof using L QL NB RS.
  intros g HC K S LD. cbv zeta. destruct (no_policies_ok g HC) as (K0 & S0 & _).
  assert (SO : pdict_eqb A rid (policies (g_pols (without_gateways g))) (policies (g_pols (no_policies g))) = true -> same_order (without_gateways g) (no_policies g)).
  { intros H. unfold pdict_eqb in H. apply andb_true_iff in H as [H _]. apply Nat.eqb_eq in H. split; [apply gateways_loaded; auto|]. split; [reflexivity|].
    cbn [no_policies g_pols policies pcont_init] in *. destruct (policies (g_pols (without_gateways g))); [reflexivity|discriminate]. }
  assert (E : excl h6 true (without_gateways g) (no_policies g) = excludes6 h6 true (without_gateways g)).
  { unfold excl. unfold excludes6 at 2. cbn [no_policies policy_list g_pols policies pcont_init map forallb]. rewrite andb_true_r. reflexivity. }
  assert (EP : equal_peers (without_gateways g) (no_policies g)).
  { unfold equal_peers, without_gateways. destruct (_ || _); cbn; tauto. }
  destruct (equivalence_spec A Q src dst tcp space cmem cok csafe vis put L QL NB rid RS h6 true (without_gateways g) (no_policies g) None K K0 S S0 SO) as [_ T].
  destruct (T EP) as (_ & _ & T1 & T2 & _). rewrite E in T1, T2. unfold vacuity. cbn [a_bool a_num].
  split; [intros H; apply (T1 H)|]. split; [|reflexivity]. intros H H'. apply T2; auto.
Qed.
End One.
