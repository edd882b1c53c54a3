(** * The semantic-difference query, for abstract connection sets. *)
From Coq Require Import ZArith List Bool Arith Lia String Permutation.
From Verif Require Import IntervalModel IntervalFacts PortProtoModel HyperInst PeerModel PeerFacts PeerSetFacts PolicyModel
                          PolicyLaws PolicyFacts LayerFacts OrderFacts QueryModel QueryFacts QuerySpecs.
Import ListNotations.
Local Open Scope nat_scope.

Section Diff.
Context {C Pt : Type} (A : cops C) (Q : qops C) (src dst : Pt -> point) (tcp : Pt -> bool) (space : Pt -> Prop)
        (cmem : Pt -> C -> Prop) (cok : C -> Prop) (csafe : C -> C -> Prop) (vis : list peer) (put : Pt -> Pt -> Pt)
        (L : claws A src dst tcp space cmem cok csafe vis) (QL : qlaws A Q src dst tcp space cmem cok csafe vis put)
        (NB : forall p, In p vis -> is_block p = false).
Local Notation law f := (f _ _ _ _ _ _ _ _ _ L).
Local Notation qlaw f := (f _ _ _ _ _ _ _ _ _ _ _ QL).
Local Notation policy := (@policy C).
Local Notation config := (@config C).
Local Notation solid := (solid cok csafe).
Local Notation rel ex6 pt := (relevant ex6 (src pt) (dst pt)).
Local Notation cfg_ok := (cfg_ok A src dst space cmem cok csafe vis).
Local Notation allows := (allows A cmem).
Local Notation settled := (settled A space cmem).

(** ** Connections from a peer to itself *)
Definition member_pt (q : peer) (x : point) : Prop :=
  match q, x with Named k n, PN k' n' => k = k' /\ n = n' | Block l, PA y => mem y l | _, _ => False end.
Lemma pt_in_member : forall s x, pt_in x s <-> exists q, In q s /\ member_pt q x.
Proof using.
  intros s [k n|y]; cbn [pt_in]; split.
  - intros H. exists (Named k n). cbn. auto.
  - intros ([k' n'|l] & H & M); cbn in M; [destruct M as [-> ->]; auto|destruct M].
  - intros (l & H & M). exists (Block l). auto.
  - intros ([k' n'|l] & H & M); cbn in M; [destruct M|]. exists l. auto.
Qed.
Lemma auto_spec : forall s, pok vis s ->
  let a := fold_left (fun acc p => c_or A acc (c_rect A (Some [p]) (Some [p]) None)) s (c_empty A) in
  cok a /\ forall pt, space pt -> (cmem pt a <-> exists q, In q s /\ member_pt q (src pt) /\ member_pt q (dst pt)).
Proof using L.
  intros s Hs. cbv zeta.
  assert (G : forall l acc, (forall q, In q l -> In q s) -> cok acc ->
    cok (fold_left (fun acc p => c_or A acc (c_rect A (Some [p]) (Some [p]) None)) l acc) /\
    forall pt, space pt -> (cmem pt (fold_left (fun acc p => c_or A acc (c_rect A (Some [p]) (Some [p]) None)) l acc) <->
      cmem pt acc \/ exists q, In q l /\ member_pt q (src pt) /\ member_pt q (dst pt))).
  { induction l as [|p l IH]; intros acc Hl Ka; cbn [fold_left].
    - split; auto. intros pt Sp. split; [auto|]. intros [H|(q & [] & _)]; auto.
    - assert (Kp : pok vis [p]).
      { destruct Hs as [H1 H2]. split.
        - intros m [Hm|[]]. apply H1. apply Hl. left. auto.
        - intros k n [Hm|[]]. apply H2. apply Hl. left. auto. }
      assert (Kr : cok (c_rect A (Some [p]) (Some [p]) None)) by (apply (law l_rect_ok); auto).
      destruct (IH (c_or A acc (c_rect A (Some [p]) (Some [p]) None))) as [I1 I2].
      { intros q Hq. apply Hl. right. auto. }
      { apply (law l_or_ok); auto. }
      split; auto. intros pt Sp. rewrite I2, (law l_or), (law l_rect) by (auto; cbn [opt]; auto). cbn [opt].
      rewrite !pt_in_member. split.
      + intros [[H|((q1 & [<-|[]] & M1) & (q2 & [<-|[]] & M2) & _)]|(q & Hq & M)]; [auto|right; exists p; simpl; auto|right; exists q; simpl; auto].
      + intros [H|(q & [<-|Hq] & M1 & M2)]; auto.
        * left; right. split; [exists p; simpl; auto|]. split; [exists p; simpl; auto|auto].
        * right. exists q. auto. }
  destruct (G s (c_empty A)) as [G1 G2]; auto; [apply (law l_empty_ok)|]. split; auto.
  intros pt Sp. rewrite G2 by auto. pose proof (law l_empty pt). tauto.
Qed.
Lemma no_auto_spec : forall x, cok x -> solid x -> (forall pt, space pt -> cmem pt x -> ~ is_addr (src pt)) ->
  cok (no_auto A Q x) /\ forall pt, space pt -> (cmem pt (no_auto A Q x) <-> cmem pt x /\ src pt <> dst pt).
Proof using L QL.
  intros x Kx Sx NA. unfold no_auto, auto_of. pose proof (qlaw q_peers_ok x Kx) as P.
  destruct (auto_spec (q_peers Q x) P) as [K M]. set (a := fold_left _ _ _) in *. clearbody a.
  split; [apply (law l_sub_ok); auto|]. intros pt Sp. rewrite (law l_sub) by auto. split.
  - intros [H1 H2]. split; auto. intros E. apply H2. apply M; auto.
    destruct (qlaw q_peers_ends x pt Kx Sp H1) as [H _]. apply pt_in_member in H as (q & Hq & Mq). exists q. rewrite <- E. auto.
  - intros [H1 H2]. split; auto. intros H. apply M in H as (q & Hq & M1 & M2); auto. apply H2.
    specialize (NA pt Sp H1). destruct q as [k n|l].
    + destruct (src pt), (dst pt); cbn in M1, M2; try tauto. destruct M1 as [-> ->], M2 as [-> ->]. reflexivity.
    + destruct (src pt) as [|y] eqn:E; cbn in M1; [destruct M1|]. exfalso. apply NA.
      destruct P as [P _]. destruct (P l Hq) as [_ P2]. exact (P2 y M1).
Qed.

(** ** Connections between two sets of peers, in both directions *)
Definition between (P R : point -> Prop) (pt : Pt) : Prop := (P (src pt) /\ R (dst pt)) \/ (R (src pt) /\ P (dst pt)).
Lemma pt_any : forall s x, pok vis s -> pt_in x s -> anywhere vis x.
Proof using.
  intros s [k n|y] [H1 H2] H; cbn [pt_in] in H.
  - left. apply H2. exact H.
  - right. destruct H as (l & Hl & Hy). apply H1 in Hl as [_ Hl]. exact (Hl y Hy).
Qed.
(** The intersection with such connections is well behaved: [s] holds named peers only, and [t] either holds named peers
    or addresses only. *)
Definition named_only (s : peerset) : Prop := forall x, pt_in x s -> ~ is_addr x.
Definition addr_only (s : peerset) : Prop := forall x, pt_in x s -> is_addr x.
Lemma both_ways_spec : forall s t, pok vis s -> pok vis t ->
  cok (both_ways A s t) /\ forall pt, space pt -> (cmem pt (both_ways A s t) <-> between (fun x => pt_in x s) (fun x => pt_in x t) pt).
Proof using L.
  intros s t Ks Kt. unfold both_ways.
  assert (K1 : cok (c_rect A (Some s) (Some t) None)) by (apply (law l_rect_ok); auto).
  assert (K2 : cok (c_rect A (Some t) (Some s) None)) by (apply (law l_rect_ok); auto).
  split; [apply (law l_or_ok); auto|]. intros pt Sp. rewrite (law l_or), !(law l_rect) by (auto; cbn [opt]; auto). cbn [opt]. unfold between. tauto.
Qed.
Lemma rect_solid : forall s x, pok vis s -> named_only s -> cok x ->
  solid (c_and A (c_rect A (Some s) (Some s) None) x).
Proof using L QL.
  intros s x Ks Ns Kx y Ky. assert (Kr : cok (c_rect A (Some s) (Some s) None)) by (apply (law l_rect_ok); auto).
  destruct (c_bool A (c_rect A (Some s) (Some s) None)) eqn:B.
  - apply (law l_bool _ Kr) in B as (p & Sp & Mp).
    destruct (qlaw q_point (PA 0) (PA 0) true) as (q & Sq & Eq & _); [right; apply v4_addr|right; apply v4_addr|].
    destruct (qlaw q_put p q Sp Sq) as (X1 & X2 & _).
    apply (proj2 (qlaw q_safe_and x (c_rect A (Some s) (Some s) None) y p q Kx Kr Ky Sp Sq Mp (fun H => Ns _ (proj1 (proj1 (law l_rect (Some s) (Some s) None _ Ks Ks X1) H)) (eq_ind_r is_addr (eq_ind_r is_addr (proj1 v4_addr) Eq) X2)))).
  - rewrite (qlaw q_rect_empty); auto.
    + rewrite (qlaw q_and_fresh) by auto. apply (law l_safe_fresh); auto.
    + intros pt Sp Mp. assert (X : c_bool A (c_rect A (Some s) (Some s) None) = true) by (apply (law l_bool _ Kr); eauto). congruence.
Qed.
Lemma both_solid : forall s t x, pok vis s -> pok vis t -> named_only s -> named_only t \/ addr_only t -> cok x ->
  solid (c_and A (both_ways A s t) x) /\ solid (c_and A x (both_ways A s t)).
Proof using L QL.
  intros s t x Ks Kt Ns Nt Kx. destruct (both_ways_spec s t Ks Kt) as [Kb Mb].
  destruct (c_bool A (both_ways A s t)) eqn:B.
  - apply (law l_bool _ Kb) in B as (p0 & Sp0 & Mp0). apply Mb in Mp0; auto.
    assert (E : exists a b, pt_in a s /\ pt_in b t) by (destruct Mp0 as [[H1 H2]|[H1 H2]]; eauto). destruct E as (a & b & Ha & Hb).
    destruct (qlaw q_point b a true (pt_any _ _ Kt Hb) (pt_any _ _ Ks Ha)) as (p & Sp & E1 & E2 & _).
    assert (Z : exists z, anywhere vis z /\ ~ pt_in z t /\ (pt_in a t -> ~ pt_in z s)).
    { destruct Nt as [Nt|Nt].
      - exists (PA 0). pose proof (proj1 v4_addr) as V. split; [right; auto|]. split; [intros H; apply (Nt _ H V)|intros _ H; apply (Ns _ H V)].
      - exists a. split; [apply (pt_any s); auto|]. split; [intros H|intros H _]; apply (Ns a Ha); apply Nt; exact H. }
    destruct Z as (z & Z1 & Z2 & Z3).
    destruct (qlaw q_point z a true Z1 (pt_any _ _ Ks Ha)) as (q & Sq & F1 & _ & _).
    destruct (qlaw q_put p q Sp Sq) as (X1 & X2 & X3 & _).
    assert (Mp : cmem p (both_ways A s t)) by (apply Mb; auto; right; rewrite E1, E2; auto).
    assert (Mq : ~ cmem (put p q) (both_ways A s t)).
    { intros H. apply Mb in H; auto. unfold between in H. rewrite X2, X3, F1, E2 in H. destruct H as [[H1 H2]|[H1 _]]; auto. apply (Z3 H2 H1). }
    split; intros y Ky; apply (qlaw q_safe_and x (both_ways A s t) y p q Kx Kb Ky Sp Sq Mp Mq).
  - assert (N : forall pt, space pt -> ~ cmem pt (both_ways A s t)).
    { intros pt Sp Mp. assert (X : c_bool A (both_ways A s t) = true) by (apply (law l_bool _ Kb); eauto). congruence. }
    split; intros y Ky; [|apply (qlaw q_safe_and_empty); auto].
    assert (K1 : cok (c_rect A (Some s) (Some t) None)) by (apply (law l_rect_ok); auto).
    assert (K2 : cok (c_rect A (Some t) (Some s) None)) by (apply (law l_rect_ok); auto).
    assert (E : both_ways A s t = c_empty A).
    { unfold both_ways in *. rewrite (law l_or_empty_r); auto.
      - apply (qlaw q_rect_empty); auto. intros pt Sp Mp. apply (N pt Sp). apply (law l_or); auto.
      - intros pt Sp Mp. apply (N pt Sp). apply (law l_or); auto. }
    rewrite E, (qlaw q_and_fresh) by auto. apply (law l_safe_fresh); auto.
Qed.

(** ** The categories *)
Definition gone (g1 g2 : config) (x : point) : Prop := member (g_peers g1) x /\ ~ member (g_peers g2) x.
Definition kept (g1 g2 : config) (x : point) : Prop := member (g_peers g1) x /\ member (g_peers g2) x.
Definition selected_in (g : config) (x : point) : Prop := exists p, In p (policy_list g) /\ pt_in x (p_selected p).
Definition touched (g1 g2 : config) (x : point) : Prop := kept g1 g2 x /\ (selected_in g1 x \/ selected_in g2 x).
(** What is reported as lost going from [g1] to [g2] ... *)
Definition lost_in (g1 g2 : config) (k : category) (pt : Pt) : Prop :=
  match k with
  | Lost11 => allows g1 pt /\ gone g1 g2 (src pt) /\ gone g1 g2 (dst pt) /\ src pt <> dst pt
  | Lost12 => allows g1 pt /\ between (gone g1 g2) is_addr pt
  | Lost21 => allows g1 pt /\ between (gone g1 g2) (kept g1 g2) pt
  | Chg31 => allows g1 pt /\ ~ allows g2 pt /\ between (touched g1 g2) (kept g1 g2) pt /\ src pt <> dst pt
  | Chg32 => allows g1 pt /\ ~ allows g2 pt /\ between (touched g1 g2) is_addr pt
  | _ => False
  end.
(** ... and as gained. *)
Definition gained_in (g1 g2 : config) (k : category) (pt : Pt) : Prop :=
  match k with
  | Chg31 => allows g2 pt /\ ~ allows g1 pt /\ between (touched g1 g2) (kept g1 g2) pt /\ src pt <> dst pt
  | Chg32 => allows g2 pt /\ ~ allows g1 pt /\ between (touched g1 g2) is_addr pt
  | New41 => allows g2 pt /\ between (kept g1 g2) (gone g2 g1) pt
  | New51 => allows g2 pt /\ gone g2 g1 (src pt) /\ gone g2 g1 (dst pt) /\ src pt <> dst pt
  | New52 => allows g2 pt /\ between (gone g2 g1) is_addr pt
  | _ => False
  end.
(** [o] is a set that holds exactly the connections [P]; a missing set holds none. *)
Definition shows (P : Pt -> Prop) (o : option C) : Prop :=
  match o with
  | Some x => cok x /\ forall pt, space pt -> (cmem pt x <-> P pt)
  | None => forall pt, ~ P pt
  end.

Definition pols_ok (g : config) : Prop := forall p, In p (policy_list g) -> pok vis (p_selected p).
Lemma captured_pods_spec : forall g, pols_ok g ->
  pok vis (captured_pods g) /\ forall x, pt_in x (captured_pods g) <-> selected_in g x.
Proof using.
  intros g. unfold captured_pods, selected_in, pols_ok. intros H.
  assert (G : forall l r, (forall p, In p l -> In p (policy_list g)) -> pok vis r ->
    pok vis (fold_left (fun r p => ps_union r (p_selected p)) l r) /\
    forall x, pt_in x (fold_left (fun r p => ps_union r (p_selected p)) l r) <-> pt_in x r \/ exists p, In p l /\ pt_in x (p_selected p)).
  { induction l as [|p l IH]; intros r Hl Kr; cbn [fold_left].
    - split; auto. intros x. split; [auto|]. intros [X|(p & [] & _)]; auto.
    - destruct (IH (ps_union r (p_selected p))) as [I1 I2].
      { intros q Hq. apply Hl. right; auto. }
      { apply pok_union; auto. apply H. apply Hl. left; auto. }
      split; auto. intros x. rewrite I2, union_In. split.
      + intros [[X|X]|(q & Hq & X)]; [auto|right; exists p; simpl; auto|right; exists q; simpl; auto].
      + intros [X|(q & [<-|Hq] & X)]; [auto|auto|right; exists q; auto]. }
  destruct (G (policy_list g) []) as [G1 G2]; auto; [apply pok_nil|]. split; auto.
  intros x. rewrite G2. split; [|auto]. intros [X|X]; auto. exfalso. destruct x; cbn [pt_in] in X; [destruct X|destruct X as (l & [] & _)].
Qed.
Lemma mask_ips : forall ex6, pok vis [Block (ips_mask ex6)] /\ addr_only [Block (ips_mask ex6)] /\
  forall x, is_addr x -> (ex6 = true -> ~ v6 x) -> pt_in x [Block (ips_mask ex6)].
Proof using.
  intros ex6. assert (I : ipset (ips_mask ex6)) by (destruct ex6; [apply ips4_ipset|apply all_ips_ipset]).
  split; [|split].
  - split; [intros l [H|[]]; injection H as <-; auto|intros k n [H|[]]; discriminate].
  - intros [k n|y] H; cbn [pt_in] in H; [destruct H as [H|[]]; discriminate|]. destruct H as (l & [H|[]] & Hy). injection H as <-. destruct I as [_ I]. exact (I y Hy).
  - intros [k n|y] V N; [destruct V|]. exists (ips_mask ex6). split; [left; auto|]. destruct ex6; cbn [ips_mask].
    + apply ips4_mem; auto.
    + apply all_ips_mem. exact V.
Qed.

Lemma sem_diff_spec : forall h6 flag g1 g2 k, cfg_ok g1 -> cfg_ok g2 -> settled g1 -> settled g2 -> pols_ok g1 -> pols_ok g2 ->
  let ex6 := excl h6 flag g1 g2 in let r := sem_diff A Q h6 flag g1 g2 k in
  shows (fun pt => rel ex6 pt /\ lost_in g1 g2 k pt) (fst r) /\ shows (fun pt => rel ex6 pt /\ gained_in g1 g2 k pt) (snd r).
Proof using L QL NB.
  intros h6 flag g1 g2 k K1 K2 S1 S2 P1 P2. cbv zeta. unfold sem_diff.
  pose proof (all_usable A Q src dst tcp space cmem cok csafe vis put L QL g1 K1 S1) as U1.
  pose proof (all_usable A Q src dst tcp space cmem cok csafe vis put L QL g2 K2 S2) as U2.
  set (ex6 := excl h6 flag g1 g2).
  pose proof (filtered_sets A Q src dst tcp space cmem cok csafe vis put L QL NB ex6 g1 g2 _ _ U1 U2) as [F1 F2 O1 O2 M1 M2 _].
  change (all_allowed (conns_of A g1 only_all_allowed)) with (all_of A (g_peers g1) (lays (g_pols g1))).
  change (all_allowed (conns_of A g2 only_all_allowed)) with (all_of A (g_peers g2) (lays (g_pols g2))).
  destruct (filter_conns A Q ex6 g1 g2 (all_of A (g_peers g1) (lays (g_pols g1))) (all_of A (g_peers g2) (lays (g_pols g2)))) as [old new].
  cbn [fst snd] in F1, F2, O1, O2, M1, M2.
  fold (allows g1) in M1. fold (allows g2) in M2.
  destruct (peers_group_spec vis (g_peers g1) false true (proj1 K1)) as [G1 H1]. destruct (peers_group_spec vis (g_peers g2) false true (proj1 K2)) as [G2 H2].
  set (op := peers_group (g_peers g1) false true) in *. clearbody op. set (np := peers_group (g_peers g2) false true) in *. clearbody np.
  assert (H1' : forall x, pt_in x op <-> member (g_peers g1) x) by (intros x; rewrite H1; intuition discriminate). clear H1.
  assert (H2' : forall x, pt_in x np <-> member (g_peers g2) x) by (intros x; rewrite H2; intuition discriminate). clear H2.
  destruct (pinter_spec vis op np G1 G2) as [I1 I2]. set (it := pinter op np) in *. clearbody it.
  destruct (psub_spec vis op it G1 I1) as [R1 R2]. set (rm := psub op it) in *. clearbody rm.
  destruct (psub_spec vis np it G2 I1) as [A1 A2]. set (ad := psub np it) in *. clearbody ad.
  destruct (captured_pods_spec g1 P1) as [C1 C2]. destruct (captured_pods_spec g2 P2) as [C3 C4].
  destruct (pinter_spec vis (ps_union (captured_pods g1) (captured_pods g2)) it) as [T1 T2]; auto; [apply pok_union; auto|].
  set (ct := pinter _ it) in *. clearbody ct.
  assert (EI : forall x, pt_in x it <-> kept g1 g2 x) by (intros x; rewrite I2, H1', H2'; reflexivity).
  assert (DM : forall (g : config) x, member (g_peers g) x \/ ~ member (g_peers g) x).
  { intros g [kk n|y]; cbn [member]; [destruct (in_dec peer_dec (Named kk n) (g_peers g)); auto|auto]. }
  assert (ER : forall x, pt_in x rm <-> gone g1 g2 x) by (intros x; rewrite R2, EI, H1'; unfold kept, gone; tauto).
  assert (EA : forall x, pt_in x ad <-> gone g2 g1 x) by (intros x; rewrite A2, EI, H2'; unfold kept, gone; tauto).
  assert (ET : forall x, pt_in x ct <-> touched g1 g2 x) by (intros x; rewrite T2, union_In, C2, C4, EI; unfold touched; tauto).
  assert (NN : forall (g : config) x, member (g_peers g) x -> ~ is_addr x) by (intros g [kk n|y]; cbn; tauto).
  assert (NI : named_only it) by (intros x H; apply EI in H as [H _]; eapply NN; eauto).
  assert (NR : named_only rm) by (intros x H; apply ER in H as [H _]; eapply NN; eauto).
  assert (NA : named_only ad) by (intros x H; apply EA in H as [H _]; eapply NN; eauto).
  assert (NT : named_only ct) by (intros x H; apply ET in H as [[H _] _]; eapply NN; eauto).
  destruct (mask_ips ex6) as (V1 & V2 & V3). set (ips := [Block (ips_mask ex6)]) in *. clearbody ips.
  assert (KL : cok (c_sub A old new)) by (apply (law l_sub_ok); auto). assert (KG : cok (c_sub A new old)) by (apply (law l_sub_ok); auto).
  assert (DA : forall pt, allows g1 pt \/ ~ allows g1 pt) by (intros pt; apply (law l_dec); apply U1).
  assert (DB : forall pt, allows g2 pt \/ ~ allows g2 pt) by (intros pt; apply (law l_dec); apply U2).
  assert (ML : forall pt, space pt -> (cmem pt (c_sub A old new) <-> rel ex6 pt /\ allows g1 pt /\ ~ allows g2 pt)).
  { intros pt Sp. rewrite (law l_sub), M1, M2 by auto. unfold QuerySpecs.allows. tauto. }
  assert (MG : forall pt, space pt -> (cmem pt (c_sub A new old) <-> rel ex6 pt /\ allows g2 pt /\ ~ allows g1 pt)).
  { intros pt Sp. rewrite (law l_sub), M1, M2 by auto. unfold QuerySpecs.allows. tauto. }
  assert (MO : forall pt, space pt -> (cmem pt old <-> rel ex6 pt /\ allows g1 pt)) by (intros pt Sp; rewrite M1 by auto; unfold QuerySpecs.allows; tauto).
  assert (MN : forall pt, space pt -> (cmem pt new <-> rel ex6 pt /\ allows g2 pt)) by (intros pt Sp; rewrite M2 by auto; unfold QuerySpecs.allows; tauto).
  clear M1 M2 O1 O2 U1 U2.
  (* the three shapes *)
  assert (IPB : forall pt s, rel ex6 pt -> named_only s -> (between (fun x => pt_in x s) (fun x => pt_in x ips) pt <-> between (fun x => pt_in x s) is_addr pt)).
  { intros pt s R N. unfold between. destruct R as [_ R]. split.
    - intros [[X Y]|[X Y]]; [left|right]; split; auto.
    - intros [[X Y]|[X Y]]; [left|right]; (split; auto); apply V3; auto; intros E; destruct (R E); auto. }
  assert (Sq : forall s x (P : Pt -> Prop), pok vis s -> named_only s -> cok x -> (forall pt, space pt -> (cmem pt x <-> rel ex6 pt /\ P pt)) ->
     let z := no_auto A Q (c_and A (c_rect A (Some s) (Some s) None) x) in
     cok z /\ forall pt, space pt -> (cmem pt z <-> rel ex6 pt /\ P pt /\ pt_in (src pt) s /\ pt_in (dst pt) s /\ src pt <> dst pt)).
  { intros s x P Ks Ns Kx Mx. cbv zeta. assert (Kr : cok (c_rect A (Some s) (Some s) None)) by (apply (law l_rect_ok); auto).
    assert (Kz : cok (c_and A (c_rect A (Some s) (Some s) None) x)) by (apply (law l_and_ok); auto).
    assert (Mz : forall pt, space pt -> (cmem pt (c_and A (c_rect A (Some s) (Some s) None) x) <-> (pt_in (src pt) s /\ pt_in (dst pt) s) /\ rel ex6 pt /\ P pt)).
    { intros pt Sp. rewrite (law l_and), (law l_rect), Mx by (auto; cbn [opt]; auto). cbn [opt]. tauto. }
    destruct (no_auto_spec _ Kz (rect_solid s x Ks Ns Kx)) as [N1 N2].
    { intros pt Sp H. apply Mz in H as [[H _] _]; auto. }
    split; auto. intros pt Sp. rewrite N2, Mz by auto. tauto. }
  assert (Bw : forall s t x (P : Pt -> Prop), pok vis s -> pok vis t -> named_only s -> named_only t -> cok x -> (forall pt, space pt -> (cmem pt x <-> rel ex6 pt /\ P pt)) ->
     (let z := no_auto A Q (c_and A (both_ways A s t) x) in
     cok z /\ forall pt, space pt -> (cmem pt z <-> rel ex6 pt /\ P pt /\ between (fun x => pt_in x s) (fun x => pt_in x t) pt /\ src pt <> dst pt)) /\
     (let z := no_auto A Q (c_and A x (both_ways A s t)) in
     cok z /\ forall pt, space pt -> (cmem pt z <-> rel ex6 pt /\ P pt /\ between (fun x => pt_in x s) (fun x => pt_in x t) pt /\ src pt <> dst pt))).
  { intros s t x P Ks Kt Ns Nt Kx Mx. destruct (both_ways_spec s t Ks Kt) as [Kb Mb]. destruct (both_solid s t x Ks Kt Ns (or_introl Nt) Kx) as [SS1 SS2].
    split; cbv zeta.
    - assert (Kz : cok (c_and A (both_ways A s t) x)) by (apply (law l_and_ok); auto).
      assert (Mz : forall pt, space pt -> (cmem pt (c_and A (both_ways A s t) x) <-> between (fun x => pt_in x s) (fun x => pt_in x t) pt /\ rel ex6 pt /\ P pt)).
      { intros pt Sp. rewrite (law l_and), Mb, Mx by auto. tauto. }
      destruct (no_auto_spec _ Kz SS1) as [N1 N2]; [intros pt Sp H; apply Mz in H as [[[H _]|[H _]] _]; auto|].
      split; auto. intros pt Sp. rewrite N2, Mz by auto. tauto.
    - assert (Kz : cok (c_and A x (both_ways A s t))) by (apply (law l_and_ok); auto).
      assert (Mz : forall pt, space pt -> (cmem pt (c_and A x (both_ways A s t)) <-> between (fun x => pt_in x s) (fun x => pt_in x t) pt /\ rel ex6 pt /\ P pt)).
      { intros pt Sp. rewrite (law l_and), Mb, Mx by auto. tauto. }
      destruct (no_auto_spec _ Kz SS2) as [N1 N2]; [intros pt Sp H; apply Mz in H as [[[H _]|[H _]] _]; auto|].
      split; auto. intros pt Sp. rewrite N2, Mz by auto. tauto. }
  assert (Bi : forall s x (P : Pt -> Prop), pok vis s -> named_only s -> cok x -> (forall pt, space pt -> (cmem pt x <-> rel ex6 pt /\ P pt)) ->
     (let z := c_and A (both_ways A s ips) x in cok z /\ forall pt, space pt -> (cmem pt z <-> rel ex6 pt /\ P pt /\ between (fun x => pt_in x s) is_addr pt)) /\
     (let z := c_and A x (both_ways A s ips) in cok z /\ forall pt, space pt -> (cmem pt z <-> rel ex6 pt /\ P pt /\ between (fun x => pt_in x s) is_addr pt))).
  { intros s x P Ks Ns Kx Mx. destruct (both_ways_spec s ips Ks V1) as [Kb Mb].
    split; cbv zeta; (split; [apply (law l_and_ok); auto|]); intros pt Sp; rewrite (law l_and), Mb, Mx by auto; specialize (IPB pt s); tauto. }
  assert (BE : forall (P P' R R' : point -> Prop) pt, (forall x, P x <-> P' x) -> (forall x, R x <-> R' x) -> (between P R pt <-> between P' R' pt)).
  { intros P P' R R' pt E1 E2. unfold between. rewrite !E1, !E2. tauto. }
  assert (GK : forall pt, between (gone g1 g2) (kept g1 g2) pt -> src pt <> dst pt).
  { intros pt [[X Y]|[X Y]] E; rewrite E in *; unfold gone, kept in *; tauto. }
  assert (KG' : forall pt, between (kept g1 g2) (gone g2 g1) pt -> src pt <> dst pt).
  { intros pt [[X Y]|[X Y]] E; rewrite E in *; unfold gone, kept in *; tauto. }
  destruct k; cbn [fst snd shows lost_in gained_in]; split; try (intros pt X; tauto).
  - destruct (Sq rm old (allows g1) R1 NR F1 MO) as [Z1 Z2]. split; auto. intros pt Sp. rewrite Z2, !ER by auto. tauto.
  - destruct (Bi rm old (allows g1) R1 NR F1 MO) as [[Z1 Z2] _]. split; auto. intros pt Sp. rewrite Z2 by auto. rewrite (BE _ _ _ _ pt ER (fun x => iff_refl _)). tauto.
  - destruct (Bw rm it old (allows g1) R1 I1 NR NI F1 MO) as [[Z1 Z2] _]. split; auto. intros pt Sp. rewrite Z2 by auto. rewrite (BE _ _ _ _ pt ER EI).
    specialize (GK pt). tauto.
  - destruct (Bw ct it (c_sub A old new) (fun pt => allows g1 pt /\ ~ allows g2 pt) T1 I1 NT NI KL ML) as [_ [Z1 Z2]]. split; auto. intros pt Sp.
    rewrite Z2 by auto. rewrite (BE _ _ _ _ pt ET EI). tauto.
  - destruct (Bw ct it (c_sub A new old) (fun pt => allows g2 pt /\ ~ allows g1 pt) T1 I1 NT NI KG MG) as [_ [Z1 Z2]]. split; auto. intros pt Sp.
    rewrite Z2 by auto. rewrite (BE _ _ _ _ pt ET EI). tauto.
  - destruct (Bi ct (c_sub A old new) (fun pt => allows g1 pt /\ ~ allows g2 pt) T1 NT KL ML) as [_ [Z1 Z2]]. split; auto. intros pt Sp.
    rewrite Z2 by auto. rewrite (BE _ _ _ _ pt ET (fun x => iff_refl _)). tauto.
  - destruct (Bi ct (c_sub A new old) (fun pt => allows g2 pt /\ ~ allows g1 pt) T1 NT KG MG) as [_ [Z1 Z2]]. split; auto. intros pt Sp.
    rewrite Z2 by auto. rewrite (BE _ _ _ _ pt ET (fun x => iff_refl _)). tauto.
  - destruct (Bw it ad new (allows g2) I1 A1 NI NA F2 MN) as [[Z1 Z2] _]. split; auto. intros pt Sp. rewrite Z2 by auto. rewrite (BE _ _ _ _ pt EI EA).
    specialize (KG' pt). tauto.
  - destruct (Sq ad new (allows g2) A1 NA F2 MN) as [Z1 Z2]. split; auto. intros pt Sp. rewrite Z2, !EA by auto. tauto.
  - destruct (Bi ad new (allows g2) A1 NA F2 MN) as [[Z1 Z2] _]. split; auto. intros pt Sp. rewrite Z2 by auto. rewrite (BE _ _ _ _ pt EA (fun x => iff_refl _)). tauto.
Qed.

(** ** Connections between peers that no policy selects *)
Definition istio_like (g : config) : Prop := exists n pols, In (n, pols) (lays (g_pols g)) /\ (n = LIstio \/ n = LIstioGateway).
Definition unselected (pols : list policy) (x : point) : Prop := forall p, In p pols -> ~ pt_in x (p_selected p).
Lemma captured_selected : forall (p : policy) ing x, pt_in x (policy_captured p ing) -> pt_in x (p_selected p).
Proof using.
  intros p ing x. assert (E : ~ pt_in x []) by (destruct x; cbn [pt_in]; [tauto|intros (l & [] & _)]).
  unfold policy_captured. destruct (class_of (p_kind p)), ing; try destruct (p_affects_in p); try destruct (p_affects_eg p); tauto.
Qed.
Lemma default_layer : forall (ps : peerset) n (pols : list policy) pt, stays src dst space cmem ps pols -> space pt -> possible (src pt) (dst pt) ->
  anywhere ps (src pt) -> anywhere ps (dst pt) -> unselected pols (src pt) -> unselected pols (dst pt) ->
  (layer_allows src dst tcp cmem ps n pols pt <->
   match n with
   | LK8sCalico | LK8sGateway => ~ named_hep (src pt) /\ ~ named_hep (dst pt)
   | _ => named_dns (dst pt) -> tcp pt = true
   end).
Proof using.
  intros ps n pols pt ST Sp (Q1 & Q2) As Ad Us Ud.
  assert (U : forall ing, unselected pols (here src dst ing pt)) by (intros []; auto).
  assert (V : forall ing a, ~ first_says (decides cmem ing pt) pols a).
  { intros ing a (l1 & p & l2 & E & D & _). assert (Hp : In p pols) by (rewrite E; apply in_or_app; simpl; auto).
    destruct (ST p ing pt a Hp Sp D) as [H _]. apply captured_selected in H. exact (U ing p Hp H). }
  assert (NC : forall capf ing x, unselected pols x -> ~ captured_by capf pols ing x).
  { intros capf ing x Ux (p & Hp & _ & H). apply captured_selected in H. exact (Ux p Hp H). }
  assert (NA : forall x, is_addr x -> ~ named_dns x /\ ~ named_hep x) by (intros [k m|y]; cbn; tauto).
  assert (NM : forall x, member ps x -> ~ is_addr x) by (intros [k m|y]; cbn; tauto).
  assert (Dd : named_dns (dst pt) \/ ~ named_dns (dst pt)) by (destruct (dst pt) as [k m|y]; cbn; [destruct (Nat.eq_dec k kind_dns)|]; auto).
  assert (Dt : tcp pt = true \/ tcp pt = false) by (destruct (tcp pt); auto).
  pose proof (V true) as V1. pose proof (V false) as V2.
  pose proof (NA (src pt)) as N1. pose proof (NA (dst pt)) as N2. pose proof (NM (src pt)) as N3. pose proof (NM (dst pt)) as N4.
  unfold layer_allows, layer_in, layer_out.
  assert (G : forall m, (m = LK8sCalico \/ m = LK8sGateway) ->
    ((dir_explicit src dst cmem ps m pols true pt \/ dir_default src dst tcp cmem ps m pols true pt \/ pod ps (src pt) /\ is_addr (dst pt)) /\
     (dir_explicit src dst cmem ps m pols false pt \/ dir_default src dst tcp cmem ps m pols false pt \/ is_addr (src pt) /\ pod ps (dst pt)) <->
     ~ named_hep (src pt) /\ ~ named_hep (dst pt))).
  { intros m Hm.
    assert (E1 : forall ing, ~ dir_explicit src dst cmem ps m pols ing pt).
    { intros ing X. assert (X' : k8s_explicit src dst cmem ps pols ing pt) by (destruct Hm as [->| ->]; exact X).
      destruct X' as [X'|(X' & _)]; exact (V ing _ X'). }
    assert (E2 : forall ing, dir_default src dst tcp cmem ps m pols ing pt <->
      member ps (here src dst ing pt) /\ ~ named_hep (here src dst ing pt) /\ anywhere ps (there src dst ing pt)).
    { intros ing. assert (X : dir_default src dst tcp cmem ps m pols ing pt = k8s_default src dst ps pols ing pt) by (destruct Hm as [->| ->]; reflexivity).
      rewrite X. unfold k8s_default. specialize (NC any_policy ing _ (U ing)). tauto. }
    pose proof (E1 true) as X1. pose proof (E1 false) as X2. rewrite !E2. cbn [here there]. clear E1 E2 V V1 V2 NC NA NM U ST Us Ud.
    unfold anywhere, pod in *. destruct As as [As|As], Ad as [Ad|Ad]; tauto. }
  assert (G2 : forall m, (m = LIstio \/ m = LIstioGateway) ->
    ((dir_explicit src dst cmem ps m pols true pt \/ dir_default src dst tcp cmem ps m pols true pt \/ pod ps (src pt) /\ is_addr (dst pt)) /\
     (dir_explicit src dst cmem ps m pols false pt \/ dir_default src dst tcp cmem ps m pols false pt \/ is_addr (src pt) /\ pod ps (dst pt)) <->
     (named_dns (dst pt) -> tcp pt = true))).
  { intros m Hm. clear G.
    assert (E1 : forall ing, ~ dir_explicit src dst cmem ps m pols ing pt) by (intros ing X; destruct Hm as [->| ->]; exact (V ing _ X)).
    assert (E2 : forall ing, dir_default src dst tcp cmem ps m pols ing pt = istio_default src dst tcp cmem ps pols ing pt) by (destruct Hm as [->| ->]; reflexivity).
    pose proof (E1 true) as X1. pose proof (E1 false) as X2. rewrite !E2. unfold istio_default.
    pose proof (NC istio_capf true _ Ud) as C1. pose proof (NC istio_capf false _ Us) as C2. pose proof (NC istio_capf true _ Us) as C3.
    pose proof (V1 Deny) as D1. pose proof (V2 Deny) as D2.
    assert (W : pod ps (src pt) -> exists x, pod ps x /\ ~ captured_by istio_capf pols true x) by (intros H; exists (src pt); auto).
    set (ex := exists x, pod ps x /\ ~ captured_by istio_capf pols true x) in *. clearbody ex.
    clear E1 E2 V V1 V2 NC NA NM U ST Us Ud Hm.
    unfold anywhere, anywhere_no_dns, pod in *. destruct (tcp pt) eqn:Et.
    - split; [auto|]. intros _. split.
      + destruct Ad as [Ad|Ad]; [|tauto]. destruct Dd as [Dd|Dd]; [|tauto]. tauto.
      + destruct As as [As|As]; [|tauto]. destruct Dd as [Dd|Dd]; tauto.
    - split.
      + intros [H _] Hd. exfalso. destruct H as [H|[[(_ & _ & [[_ H]|H])|(_ & _ & _ & [[_ H]|[H _]])]|[_ H]]]; try discriminate; try tauto.
      + intros H. assert (H' : ~ named_dns (dst pt)) by (intros X; apply H in X; discriminate). tauto. }
  destruct n; [apply G|apply G2|apply G|apply G2]; auto.
Qed.
Lemma default_allows : forall (g : config) pt, cfg_ok g -> space pt -> possible (src pt) (dst pt) ->
  (forall n pols p, In (n, pols) (lays (g_pols g)) -> In p pols -> In p (policy_list g)) ->
  anywhere (g_peers g) (src pt) -> anywhere (g_peers g) (dst pt) -> ~ selected_in g (src pt) -> ~ selected_in g (dst pt) ->
  (allows g pt <-> ((has_hep (g_peers g) \/ exists n pols, In (n, pols) (lays (g_pols g)) /\ (n = LK8sCalico \/ n = LK8sGateway)) ->
                     ~ named_hep (src pt) /\ ~ named_hep (dst pt)) /\ (istio_like g -> named_dns (dst pt) -> tcp pt = true)).
Proof using L.
  intros g pt (HC & LO & ST) Sp Ps In_ As Ad Us Ud.
  destruct (config_all_spec A _ _ _ _ _ _ _ _ L (g_peers g) HC _ LO) as [_ M]. unfold QuerySpecs.allows, all_of. rewrite M by auto. clear M.
  assert (DL : forall n pols, In (n, pols) (lays (g_pols g)) -> (layer_allows src dst tcp cmem (g_peers g) n pols pt <->
     match n with LK8sCalico | LK8sGateway => ~ named_hep (src pt) /\ ~ named_hep (dst pt) | _ => named_dns (dst pt) -> tcp pt = true end)).
  { intros n pols H. apply default_layer; auto; [apply (ST n); auto| |]; intros p Hp X; [apply Us|apply Ud]; exists p; (split; [eapply In_; eauto|auto]). }
  assert (D0 : layer_allows src dst tcp cmem (g_peers g) LK8sCalico [] pt <-> ~ named_hep (src pt) /\ ~ named_hep (dst pt)).
  { apply (default_layer (g_peers g) LK8sCalico []); auto; [apply stays_nil|intros p []|intros p []]. }
  pose proof (host_eps_bool vis (g_peers g) HC) as HB. split.
  - intros [H1 H2]. split.
    + intros [Hh|(n & pols & Hn & [->| ->])].
      * apply HB in Hh. rewrite Hh in H1. destruct (lget (lays (g_pols g)) LK8sCalico) as [l|] eqn:El; [|apply D0; auto].
        apply lget_some_In in El. apply (DL _ _ El). auto.
      * apply (DL _ _ Hn). auto.
      * apply (DL _ _ Hn). auto.
    + intros (n & pols & Hn & E). specialize (H2 n pols Hn). apply (DL _ _ Hn) in H2. destruct E as [->| ->]; auto.
  - intros [H1 H2]. split.
    + destruct (pbool (host_eps (g_peers g))) eqn:Eb; [|auto]. destruct (lget (lays (g_pols g)) LK8sCalico) as [l|]; [auto|]. apply D0. apply H1. left. apply HB. reflexivity.
    + intros n pols Hn. apply (DL _ _ Hn). destruct n; [apply H1|intros X; apply H2; auto|apply H1|intros X; apply H2; auto]; try (right; eauto; fail); unfold istio_like; eauto.
Qed.
(** Two configurations treat a connection between peers neither selects alike, if both or neither have an Istio layer. *)
Lemma untouched_same : forall g1 g2 pt, cfg_ok g1 -> cfg_ok g2 -> inv (g_pols g1) -> inv (g_pols g2) ->
  (istio_like g1 <-> istio_like g2) \/ ~ named_dns (dst pt) ->
  space pt -> possible (src pt) (dst pt) ->
  (kept g1 g2 (src pt) \/ is_addr (src pt)) -> (kept g1 g2 (dst pt) \/ is_addr (dst pt)) ->
  ~ selected_in g1 (src pt) -> ~ selected_in g1 (dst pt) -> ~ selected_in g2 (src pt) -> ~ selected_in g2 (dst pt) ->
  (allows g1 pt <-> allows g2 pt).
Proof using L.
  intros g1 g2 pt K1 K2 I1 I2 HI Sp Ps Ks Kd U1 U2 U3 U4.
  assert (IN : forall g : config, inv (g_pols g) -> forall n pols p, In (n, pols) (lays (g_pols g)) -> In p pols -> In p (policy_list g)).
  { intros g I n pols p H Hp. pose proof (inv_lists _ I n) as P.
    assert (E : layer_list (g_pols g) n = pols).
    { unfold layer_list. pose proof (inv_layers _ I) as ND. rewrite (proj2 (lget_In (lays (g_pols g)) n pols ND) H). reflexivity. }
    rewrite E in P. apply (Permutation_in _ P) in Hp. apply filter_In in Hp as [Hp _]. exact Hp. }
  assert (A1 : anywhere (g_peers g1) (src pt) /\ anywhere (g_peers g2) (src pt)) by (unfold anywhere, kept in *; tauto).
  assert (A2 : anywhere (g_peers g1) (dst pt) /\ anywhere (g_peers g2) (dst pt)) by (unfold anywhere, kept in *; tauto).
  rewrite (default_allows g1), (default_allows g2) by (auto; try tauto; apply IN; auto).
  assert (NAh : forall x, is_addr x -> ~ named_hep x) by (intros [k m|y]; cbn; tauto).
  assert (HH : forall g : config, (named_hep (src pt) \/ named_hep (dst pt)) -> anywhere (g_peers g) (src pt) -> anywhere (g_peers g) (dst pt) -> has_hep (g_peers g)).
  { intros g [H|H] B1 B2; [destruct B1 as [B|B]|destruct B2 as [B|B]]; try (exfalso; eapply NAh; eauto; fail); eexists; eauto. }
  pose proof (HH g1) as Y1. pose proof (HH g2) as Y2. clear HH IN NAh.
  set (b1 := exists n pols, In (n, pols) (lays (g_pols g1)) /\ _) in *. clearbody b1.
  set (b2 := exists n pols, In (n, pols) (lays (g_pols g2)) /\ _) in *. clearbody b2.
  assert (Dh : (named_hep (src pt) \/ named_hep (dst pt)) \/ (~ named_hep (src pt) /\ ~ named_hep (dst pt))).
  { destruct (src pt) as [k m|y], (dst pt) as [k' m'|y']; cbn; try (destruct (Nat.eq_dec k 1)); try (destruct (Nat.eq_dec k' 1)); tauto. }
  clear K1 K2 I1 I2 Ps Ks Kd U1 U2 U3 U4. tauto.
Qed.

(** ** The partition *)
Lemma allows_within : forall g pt, cfg_ok g -> space pt -> allows g pt -> anywhere (g_peers g) (src pt) /\ anywhere (g_peers g) (dst pt).
Proof using L.
  intros g pt (H1 & H2 & H3) Sp H. destruct (all_within A src dst tcp space cmem cok csafe vis L _ H1 _ H2 H3) as [_ W]. apply W; auto.
Qed.
Definition agree_on_istio (g1 g2 : config) : Prop :=
  (istio_like g1 <-> istio_like g2) \/ forall x, kept g1 g2 x -> ~ named_dns x.
Lemma decm : forall (g : config) x, member (g_peers g) x \/ ~ member (g_peers g) x.
Proof using. intros g [k n|y]; cbn [member]; [destruct (in_dec peer_dec (Named k n) (g_peers g)); auto|auto]. Qed.
Lemma pt_in_dec : forall x s, pt_in x s \/ ~ pt_in x s.
Proof using.
  intros [k n|y] s; cbn [pt_in].
  - destruct (in_dec peer_dec (Named k n) s); auto.
  - induction s as [|[k n|l] s IH]; [right; intros (l & [] & _)| |].
    + destruct IH as [(l & H & M)|H]; [left; exists l; simpl; auto|]. right. intros (l & [X|X] & M); [discriminate|apply H; eauto].
    + destruct (HyperInst.mem_dec l y) as [M|M]; [left; exists l; simpl; auto|]. destruct IH as [(m & H & N)|H]; [left; exists m; simpl; auto|].
      right. intros (m & [X|X] & N); [injection X as ->; auto|apply H; eauto].
Qed.
Lemma selected_dec : forall (g : config) x, selected_in g x \/ ~ selected_in g x.
Proof using.
  intros g x. unfold selected_in. induction (policy_list g) as [|p l IH]; [right; intros (p & [] & _)|].
  destruct (pt_in_dec x (p_selected p)) as [H|H]; [left; exists p; simpl; auto|]. destruct IH as [(q & Hq & X)|N]; [left; exists q; simpl; auto|].
  right. intros (q & [<-|Hq] & X); auto. apply N. exists q. auto.
Qed.
Definition selects_pods (g : config) : Prop := forall p x, In p (policy_list g) -> pt_in x (p_selected p) -> ~ is_addr x.
Lemma lost_exact : forall g1 g2 ex6 pt, cfg_ok g1 -> cfg_ok g2 -> inv (g_pols g1) -> inv (g_pols g2) -> selects_pods g1 -> selects_pods g2 ->
  agree_on_istio g1 g2 -> space pt -> rel ex6 pt -> src pt <> dst pt ->
  ((exists k, lost_in g1 g2 k pt) <-> allows g1 pt /\ ~ allows g2 pt).
Proof using L.
  intros g1 g2 ex6 pt K1 K2 I1 I2 Z1 Z2 AI Sp [Rl _] ND. split.
  - assert (NM : forall x, gone g1 g2 x -> ~ anywhere (g_peers g2) x).
    { intros [k n|y] [H1 H2] [H|H]; cbn in *; tauto. }
    assert (N : (gone g1 g2 (src pt) \/ gone g1 g2 (dst pt)) -> ~ allows g2 pt).
    { intros H X. apply allows_within in X as [X1 X2]; auto. destruct H as [H|H]; eapply NM; eauto. }
    intros [k Hk]. destruct k; cbn [lost_in] in Hk; try tauto; unfold between in Hk; tauto.
  - intros [H1 H2]. pose proof (allows_within g1 pt K1 Sp H1) as [Ws Wd].
    assert (CL : forall x, anywhere (g_peers g1) x -> gone g1 g2 x \/ kept g1 g2 x \/ is_addr x).
    { intros x [H|H]; [|auto]. destruct (decm g2 x); unfold gone, kept; auto. }
    assert (NS : forall x, is_addr x -> ~ selected_in g1 x /\ ~ selected_in g2 x).
    { intros x Hx. split; intros (p & Hp & X); [eapply Z1|eapply Z2]; eauto. }
    assert (Un : (kept g1 g2 (src pt) \/ is_addr (src pt)) -> (kept g1 g2 (dst pt) \/ is_addr (dst pt)) ->
                 (selected_in g1 (src pt) \/ selected_in g2 (src pt)) \/ (selected_in g1 (dst pt) \/ selected_in g2 (dst pt))).
    { intros X Y. destruct (selected_dec g1 (src pt)), (selected_dec g2 (src pt)), (selected_dec g1 (dst pt)), (selected_dec g2 (dst pt)); auto.
      exfalso. apply H2. apply (untouched_same g1 g2 pt); auto. destruct AI as [AI|AI]; [auto|]. right. destruct Y as [Y|Y]; auto.
      destruct (dst pt); cbn in *; tauto. }
    unfold possible in Rl.
    destruct (CL _ Ws) as [S|[S|S]], (CL _ Wd) as [D|[D|D]]; try (pose proof (NS _ S)); try (pose proof (NS _ D)).
    + exists Lost11. cbn. auto.
    + exists Lost21. cbn. unfold between. auto.
    + exists Lost12. cbn. unfold between. auto.
    + exists Lost21. cbn. unfold between. auto.
    + exists Chg31. cbn. unfold between, touched. tauto.
    + exists Chg32. cbn. unfold between, touched. tauto.
    + exists Lost12. cbn. unfold between. auto.
    + exists Chg32. cbn. unfold between, touched. tauto.
    + tauto.
Qed.
Lemma gained_exact : forall g1 g2 ex6 pt, cfg_ok g1 -> cfg_ok g2 -> inv (g_pols g1) -> inv (g_pols g2) -> selects_pods g1 -> selects_pods g2 ->
  agree_on_istio g1 g2 -> space pt -> rel ex6 pt -> src pt <> dst pt ->
  ((exists k, gained_in g1 g2 k pt) <-> allows g2 pt /\ ~ allows g1 pt).
Proof using L.
  intros g1 g2 ex6 pt K1 K2 I1 I2 Z1 Z2 AI Sp Rl ND.
  rewrite <- (lost_exact g2 g1 ex6 pt); auto.
  - assert (T : forall P, between (touched g1 g2) P pt <-> between (touched g2 g1) P pt) by (intros P; unfold between, touched, kept; tauto).
    assert (T2 : forall P, between P (kept g1 g2) pt <-> between P (kept g2 g1) pt) by (intros P; unfold between, kept; tauto).
    assert (T3 : between (kept g1 g2) (gone g2 g1) pt <-> between (gone g2 g1) (kept g2 g1) pt) by (unfold between, kept; tauto).
    split; intros [k H].
    + destruct k; cbn [gained_in] in H; try tauto.
      * exists Chg31. cbn [lost_in]. rewrite <- T, <- T2. tauto.
      * exists Chg32. cbn [lost_in]. rewrite <- T. tauto.
      * exists Lost21. cbn [lost_in]. rewrite <- T3. tauto.
      * exists Lost11. cbn [lost_in]. tauto.
      * exists Lost12. cbn [lost_in]. tauto.
    + destruct k; cbn [lost_in] in H; try tauto.
      * exists New51. cbn [gained_in]. tauto.
      * exists New52. cbn [gained_in]. tauto.
      * exists New41. cbn [gained_in]. rewrite T3. tauto.
      * exists Chg31. cbn [gained_in]. rewrite T, T2. tauto.
      * exists Chg32. cbn [gained_in]. rewrite T. tauto.
  - destruct AI as [AI|AI]; [left; tauto|right]. intros x [X Y]. apply AI. split; auto.
Qed.
(** No connection is reported twice. *)
Lemma lost_once : forall g1 g2 k k' pt, lost_in g1 g2 k pt -> lost_in g1 g2 k' pt -> k = k'.
Proof using.
  intros g1 g2 k k' pt. assert (NA : forall (g : config) x, member (g_peers g) x -> ~ is_addr x) by (intros g [m n|y]; cbn; tauto).
  pose proof (NA g1 (src pt)). pose proof (NA g1 (dst pt)).
  destruct k, k'; auto; cbn [lost_in]; unfold between, touched, kept, gone; intros H1 H2; exfalso; tauto.
Qed.
Lemma gained_once : forall g1 g2 k k' pt, gained_in g1 g2 k pt -> gained_in g1 g2 k' pt -> k = k'.
Proof using.
  intros g1 g2 k k' pt. assert (NA : forall (g : config) x, member (g_peers g) x -> ~ is_addr x) by (intros g [m n|y]; cbn; tauto).
  pose proof (NA g2 (src pt)). pose proof (NA g2 (dst pt)).
  destruct k, k'; auto; cbn [gained_in]; unfold between, touched, kept, gone; intros H1 H2; exfalso; tauto.
Qed.
End Diff.
