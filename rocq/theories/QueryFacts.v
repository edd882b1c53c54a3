(** * Facts about the query model, for abstract connection sets. *)
From Coq Require Import ZArith List Bool Arith Lia String.
From Verif Require Import IntervalModel IntervalFacts PortProtoModel PeerModel PeerFacts PeerSetFacts PolicyModel
                          PolicyLaws PolicyFacts LayerFacts OrderFacts QueryModel.
Import ListNotations.
Local Open Scope nat_scope.

(** Further laws of connection sets, for the peer domain used during a query: it consists of all addresses and the peers
    [vis].  [put p q] is the connection [p] with the source of [q]. *)
Record qlaws {C Pt : Type} (A : cops C) (Q : qops C) (src dst : Pt -> point) (tcp : Pt -> bool) (space : Pt -> Prop)
       (cmem : Pt -> C -> Prop) (cok : C -> Prop) (csafe : C -> C -> Prop) (vis : list peer) (put : Pt -> Pt -> Pt) : Prop := QLaws {
  q_all_ok : cok (q_all Q);
  q_all_mem : forall pt, space pt -> cmem pt (q_all Q);
  q_and_all : forall x, cok x -> c_and A x (q_all Q) = x;
  q_peers_ok : forall x, cok x -> pok vis (q_peers Q x);
  q_peers_ends : forall x pt, cok x -> space pt -> cmem pt x -> pt_in (src pt) (q_peers Q x) /\ pt_in (dst pt) (q_peers Q x);
  q_ends : forall pt, space pt -> anywhere vis (src pt) /\ anywhere vis (dst pt);
  q_point : forall x y b, anywhere vis x -> anywhere vis y -> exists pt, space pt /\ src pt = x /\ dst pt = y /\ tcp pt = b;
  q_put : forall p q, space p -> space q -> space (put p q) /\ src (put p q) = src q /\ dst (put p q) = dst p /\ tcp (put p q) = tcp p;
  q_pod : exists p, In p vis;
  q_safe_and : forall x r y p q, cok x -> cok r -> cok y -> space p -> space q -> cmem p r -> ~ cmem (put p q) r ->
    csafe (c_and A x r) y /\ csafe (c_and A r x) y;
  q_safe_and_empty : forall x r y, cok x -> cok r -> cok y -> (forall pt, space pt -> ~ cmem pt r) -> csafe (c_and A x r) y;
  q_and_fresh : forall x, cok x -> c_and A (c_empty A) x = c_empty A;
  q_rect_empty : forall s d pr, opt (pok vis) s -> opt (pok vis) d -> (forall pt, space pt -> ~ cmem pt (c_rect A s d pr)) -> c_rect A s d pr = c_empty A;
  q_safe_sub : forall x r y p q, cok x -> cok r -> cok y -> csafe x r -> space p -> space q -> cmem p r -> ~ cmem (put p q) r ->
    csafe (c_sub A x r) y;
  q_eqb_refl : forall x, cok x -> c_eqb A x x = true;
  q_eqb_and : forall x y r, cok x -> cok y -> cok r -> (exists pt, space pt /\ ~ cmem pt x) -> (exists pt, space pt /\ ~ cmem pt y) ->
    (exists pt, space pt /\ ~ cmem pt r) -> (forall pt, space pt -> (cmem pt (c_and A x r) <-> cmem pt (c_and A y r))) ->
    c_eqb A (c_and A x r) (c_and A y r) = true
}.

(** Connections that can occur: not between two addresses, not from an address to a DNS entry, not from a DNS entry. *)
Definition possible (s d : point) : Prop := ~ (is_addr s /\ (is_addr d \/ named_dns d)) /\ ~ named_dns s.
Definition v6 (x : point) : Prop := match x with PA y => (v6min <= y)%Z | _ => False end.
(** ... and which the query looks at: no IPv6 addresses if they are excluded. *)
Definition relevant (ex6 : bool) (s d : point) : Prop := possible s d /\ (ex6 = true -> ~ v6 s /\ ~ v6 d).

Local Opaque v4max v6min v6max.
Lemma ips4_eq : ips4 = [Ivl 0 v4max].
Proof. reflexivity. Qed.
Lemma ips4_ipset : ipset ips4.
Proof.
  rewrite ips4_eq. pose proof consts as (K1 & K2 & K3). split.
  - cbn. repeat split; lia.
  - intros y [i [[<-|[]] H]]; cbn [lo hi] in H; unfold vpos; lia.
Qed.
Lemma ips4_mem : forall y, vpos y -> (mem y ips4 <-> ~ v6 (PA y)).
Proof.
  intros y V. rewrite ips4_eq. unfold v6. pose proof consts as (K1 & K2 & K3). unfold vpos in V. split.
  - intros [i [[<-|[]] H]]; cbn [lo hi] in H; lia.
  - intros H. exists (Ivl 0 v4max). cbn [lo hi In]. split; auto. lia.
Qed.
Lemma mask_spec : forall reg s, pok reg s -> pok reg (mask_peers s) /\ forall x, pt_in x (mask_peers s) <-> pt_in x s /\ ~ v6 x.
Proof.
  intros reg s [P1 P2]. unfold mask_peers. destruct (ps_filter_mask_ok s ips4 P1 ips4_ipset) as (r & -> & R1 & R2).
  assert (M : forall x, pt_in x r <-> pt_in x s /\ ~ v6 x).
  { intros x. rewrite R2. destruct x as [k n|y]; [cbn [v6]; tauto|].
    split; intros [H1 H2]; (split; [auto|]); destruct H1 as (l & Hl & Hy); apply P1 in Hl as [_ Hv]; specialize (Hv _ Hy); apply (ips4_mem y Hv); auto. }
  split; auto. split; auto. intros k n H. apply (M (PN k n)) in H as [H _]. exact (P2 k n H).
Qed.
Lemma v4_addr : is_addr (PA 0) /\ ~ v6 (PA 0).
Proof. pose proof consts as (K1 & K2 & K3). cbn [is_addr v6]. unfold vpos. lia. Qed.
Lemma v6_addr : is_addr (PA v6min) /\ v6 (PA v6min).
Proof. pose proof consts as (K1 & K2 & K3). cbn [is_addr v6]. unfold vpos. lia. Qed.
Lemma peq_spec : forall reg s t, pok reg s -> pok reg t -> (peq s t = true <-> forall x, pt_in x s <-> pt_in x t).
Proof. intros reg s t [P1 _] [P2 _]. unfold peq. destruct (ps_equal_ok s t P1 P2) as (b & -> & H). exact H. Qed.

Section Facts.
Context {C Pt : Type} (A : cops C) (Q : qops C) (src dst : Pt -> point) (tcp : Pt -> bool) (space : Pt -> Prop)
        (cmem : Pt -> C -> Prop) (cok : C -> Prop) (csafe : C -> C -> Prop) (vis : list peer) (put : Pt -> Pt -> Pt)
        (L : claws A src dst tcp space cmem cok csafe vis) (QL : qlaws A Q src dst tcp space cmem cok csafe vis put).
Local Notation law f := (f _ _ _ _ _ _ _ _ _ L).
Local Notation qlaw f := (f _ _ _ _ _ _ _ _ _ _ _ QL).
Local Notation policy := (@policy C).
Local Notation solid := (solid cok csafe).

Definition ip_rect (ps : peerset) : C := c_rect A (Some all_ips_set) (Some (ps_union all_ips_set (all_dns ps))) None.

(** ** filter_conns_by_peer_types *)
Section OnePeers.
Context (ps : peerset) (HC : container vis ps).

Lemma member_named : forall x, member ps x -> ~ is_addr x.
Proof. intros [k n|y]; cbn [member is_addr]; tauto. Qed.
Lemma vis_member : forall p, In p vis -> is_block p = false -> exists x, anywhere vis x /\ ~ is_addr x.
Proof. intros [k n|l] H E; [|discriminate]. exists (PN k n). split; [left; exact H|cbn; tauto]. Qed.

Lemma types_spec : forall x, cok x -> (forall pt, space pt -> cmem pt x -> anywhere ps (src pt) /\ anywhere ps (dst pt)) ->
  csafe x (ip_rect ps) -> (exists z, anywhere vis z /\ ~ is_addr z) ->
  let r := filter_by_peer_types A ps x in
  cok r /\ solid r /\ (forall pt, space pt -> (cmem pt r <-> cmem pt x /\ possible (src pt) (dst pt))) /\
  exists pt, space pt /\ ~ cmem pt r /\ is_addr (src pt).
Proof using L QL HC.
  intros x K W S (z & Z1 & Z2). cbv zeta.
  destruct (qlaw q_point (PA 0) (PA 0) true) as (p0 & P1 & P2 & P3 & _); [right; apply v4_addr|right; apply v4_addr|].
  destruct (qlaw q_point z (PA 0) true) as (q0 & Q1 & Q2 & Q3 & _); [auto|right; apply v4_addr|].
  assert (A0 : is_addr (PA 0)) by apply v4_addr.
  destruct (filter_types_spec A _ _ _ _ _ _ _ _ L ps HC x K S) as [R1 R2].
  { exists p0. rewrite P2, P3. auto. }
  { exists q0. rewrite Q2. auto. }
  assert (M : forall pt, space pt -> (cmem pt (filter_by_peer_types A ps x) <-> cmem pt x /\ possible (src pt) (dst pt))).
  { intros pt Sp. rewrite R2 by auto. unfold possible. split.
    - intros (H1 & H2 & H3). split; auto. destruct (W pt Sp H1) as [Ws Wd].
      assert (NA : forall w, is_addr w -> ~ named_dns w) by (intros [k n|y]; cbn; tauto).
      assert (X1 : is_addr (dst pt) -> ~ named_dns (dst pt)) by auto. assert (X2 : is_addr (src pt) -> ~ named_dns (src pt)) by auto.
      unfold anywhere in *. clear - H2 H3 Ws Wd X1 X2. tauto.
    - intros (H1 & H2 & H3). clear - H1 H2 H3. tauto. }
  split; auto. split; [|split; [exact M|]].
  2:{ exists p0. split; auto. rewrite P2. split; auto. rewrite M by auto. unfold possible. rewrite P2, P3. tauto. }
  intros y Ky. unfold filter_by_peer_types. cbv zeta. fold (ip_rect ps).
  destruct (all_dns_spec vis ps HC) as [D1 D2]. destruct (all_ips_set_spec vis) as [W1 W2].
  assert (RI : cok (ip_rect ps)) by (apply (law l_rect_ok); cbn [opt]; auto; apply pok_union; auto).
  assert (MI : forall pt, space pt -> (cmem pt (ip_rect ps) <-> is_addr (src pt) /\ (is_addr (dst pt) \/ (member ps (dst pt) /\ named_dns (dst pt))))).
  { intros pt Sp. unfold ip_rect. rewrite (law l_rect) by (auto; cbn [opt]; auto; apply pok_union; auto). cbn [opt]. rewrite union_In, !W2, D2. tauto. }
  assert (RD : cok (c_rect A (Some (all_dns ps)) None None)) by (apply (law l_rect_ok); cbn [opt]; auto).
  assert (MD : forall pt, space pt -> (cmem pt (c_rect A (Some (all_dns ps)) None None) <-> member ps (src pt) /\ named_dns (src pt))).
  { intros pt Sp. rewrite (law l_rect) by (auto; cbn [opt]; auto). cbn [opt]. rewrite D2. tauto. }
  destruct (qlaw q_put p0 q0 P1 Q1) as (U1 & U2 & U3 & _).
  assert (S1 : forall w, cok w -> csafe (c_sub A x (ip_rect ps)) w).
  { intros w Kw. apply (qlaw q_safe_sub) with (p := p0) (q := q0); auto.
    - rewrite MI by auto. rewrite P2, P3. auto.
    - rewrite MI by auto. rewrite U2, Q2. tauto. }
  assert (K1 : cok (c_sub A x (ip_rect ps))) by (apply (law l_sub_ok); auto).
  destruct (all_dns ps) as [|d ds] eqn:Ed.
  - rewrite (law l_sub_empty_r); auto. intros pt Sp. rewrite MD by auto. rewrite <- D2. apply pbool_false. reflexivity.
  - assert (Hd : exists w, member ps w /\ named_dns w).
    { destruct d as [k n|l]; [exists (PN k n); apply D2; left; auto|]. exfalso.
      assert (X : In (Block l) (all_dns ps)) by (rewrite Ed; left; auto). unfold all_dns in X.
      apply (dns_fold_In is_dns) in X as [[]|[_ X]]. discriminate. }
    destruct Hd as (w & Hw1 & Hw2). assert (Vw : anywhere vis w).
    { destruct w as [k n|a]; [|destruct Hw1]. left. cbn [member] in *. apply HC in Hw1. tauto. }
    destruct (qlaw q_point w (PA 0) true Vw) as (p1 & T1 & T2 & T3 & _); [right; auto|].
    destruct (qlaw q_put p1 p0 T1 P1) as (V1 & V2 & V3 & _).
    apply (qlaw q_safe_sub) with (p := p1) (q := p0); auto.
    + rewrite MD by auto. rewrite T2. auto.
    + rewrite MD by auto. rewrite V2, P2. cbn [member]. tauto.
Qed.
End OnePeers.

(** ** filter_conns_by_input_or_internal_constraints *)
Definition within (ps : peerset) (x : C) : Prop := forall pt, space pt -> cmem pt x -> anywhere ps (src pt) /\ anywhere ps (dst pt).

Lemma vis_named : (forall p, In p vis -> is_block p = false) -> exists z, anywhere vis z /\ ~ is_addr z.
Proof using QL. intros H. destruct (qlaw q_pod) as [p Hp]. apply (vis_member p Hp). auto. Qed.

Lemma filter_conns_spec : forall ex6 (g1 g2 : config) x1 x2,
  container vis (g_peers g1) -> container vis (g_peers g2) -> (forall p, In p vis -> is_block p = false) ->
  cok x1 -> cok x2 -> within (g_peers g1) x1 -> within (g_peers g2) x2 ->
  csafe x1 (ip_rect (g_peers g1)) -> csafe x2 (ip_rect (g_peers g2)) ->
  let r := filter_conns A Q ex6 g1 g2 x1 x2 in
  (cok (fst r) /\ cok (snd r)) /\ (solid (fst r) /\ solid (snd r)) /\
  (forall pt, space pt -> (cmem pt (fst r) <-> cmem pt x1 /\ relevant ex6 (src pt) (dst pt))) /\
  (forall pt, space pt -> (cmem pt (snd r) <-> cmem pt x2 /\ relevant ex6 (src pt) (dst pt))) /\
  (ex6 = true -> (forall pt, space pt -> (cmem pt (fst r) <-> cmem pt (snd r))) -> c_eqb A (fst r) (snd r) = true).
Proof using L QL.
  intros ex6 g1 g2 x1 x2 C1 C2 V K1 K2 W1 W2 S1 S2. cbv zeta. unfold filter_conns. cbn [fst snd].
  pose proof (vis_named V) as Z.
  destruct (types_spec (g_peers g1) C1 x1 K1 W1 S1 Z) as (T1 & O1 & M1 & N1).
  destruct (types_spec (g_peers g2) C2 x2 K2 W2 S2 Z) as (T2 & O2 & M2 & N2).
  set (y1 := filter_by_peer_types A (g_peers g1) x1) in *. clearbody y1.
  set (y2 := filter_by_peer_types A (g_peers g2) x2) in *. clearbody y2.
  unfold conns_filter. cbv zeta. destruct ex6.
  2:{ rewrite !(qlaw q_and_all) by auto. split; auto. split; auto. split; [|split; [|discriminate]].
      - intros pt Sp. rewrite M1 by auto. unfold relevant. intuition discriminate.
      - intros pt Sp. rewrite M2 by auto. unfold relevant. intuition discriminate. }
  set (u := ps_union (q_peers Q x1) (q_peers Q x2)).
  assert (U : pok vis u) by (apply pok_union; apply (qlaw q_peers_ok); auto).
  destruct (mask_spec vis u U) as [U1 U2]. set (m := mask_peers u) in *. clearbody m.
  assert (R : cok (c_rect A (Some m) (Some m) None)) by (apply (law l_rect_ok); auto).
  assert (RM : forall pt, space pt -> (cmem pt (c_rect A (Some m) (Some m) None) <-> (pt_in (src pt) u /\ ~ v6 (src pt)) /\ (pt_in (dst pt) u /\ ~ v6 (dst pt)))).
  { intros pt Sp. rewrite (law l_rect) by (auto; cbn [opt]; auto). cbn [opt]. rewrite !U2. tauto. }
  set (r := c_rect A (Some m) (Some m) None) in *. clearbody r.
  assert (E1 : forall pt, space pt -> cmem pt x1 -> pt_in (src pt) u /\ pt_in (dst pt) u).
  { intros pt Sp H. unfold u. rewrite !union_In. destruct (qlaw q_peers_ends x1 pt K1 Sp H). auto. }
  assert (E2 : forall pt, space pt -> cmem pt x2 -> pt_in (src pt) u /\ pt_in (dst pt) u).
  { intros pt Sp H. unfold u. rewrite !union_In. destruct (qlaw q_peers_ends x2 pt K2 Sp H). auto. }
  assert (SA : forall y, cok y -> solid (c_and A y r)).
  { intros y Ky w Kw. destruct (c_bool A r) eqn:B.
    - apply (law l_bool r R) in B as (p & Sp & Mp).
      destruct (qlaw q_point (PA v6min) (PA 0) true) as (q & Sq & Eq & _); [right; apply v6_addr|right; apply v4_addr|].
      destruct (qlaw q_put p q Sp Sq) as (X1 & X2 & _).
      apply (proj1 (qlaw q_safe_and y r w p q Ky R Kw Sp Sq Mp (fun H => proj2 (proj1 (proj1 (RM _ X1) H)) (eq_ind_r v6 (eq_ind_r v6 (proj2 v6_addr) Eq) X2)))).
    - apply (qlaw q_safe_and_empty); auto. intros pt Sp Mp.
      assert (X : c_bool A r = true) by (apply (law l_bool r R); exists pt; auto). congruence. }
  split; [split; apply (law l_and_ok); auto|]. split; [split; apply SA; auto|].
  assert (F1 : forall pt, space pt -> (cmem pt (c_and A y1 r) <-> cmem pt x1 /\ relevant true (src pt) (dst pt))).
  { intros pt Sp. rewrite (law l_and), M1, RM by auto. unfold relevant. specialize (E1 pt Sp). tauto. }
  assert (F2 : forall pt, space pt -> (cmem pt (c_and A y2 r) <-> cmem pt x2 /\ relevant true (src pt) (dst pt))).
  { intros pt Sp. rewrite (law l_and), M2, RM by auto. unfold relevant. specialize (E2 pt Sp). tauto. }
  split; [exact F1|]. split; [exact F2|]. intros _ H.
  apply (qlaw q_eqb_and); auto.
  - destruct N1 as (p & Sp & Np & _). exists p. auto.
  - destruct N2 as (p & Sp & Np & _). exists p. auto.
  - destruct (qlaw q_point (PA v6min) (PA 0) true) as (q & Sq & Eq & _); [right; apply v6_addr|right; apply v4_addr|].
    exists q. split; auto. rewrite RM, Eq by auto. pose proof v6_addr. tauto.
Qed.

(** ** The connections of a configuration *)
Section OneConfig.
Context (ps : peerset) (HC : container vis ps) (ls : @layers C) (LO : layers_ok A cok csafe vis ls).
Local Notation lallows := (layer_allows src dst tcp cmem ps).
Local Notation decides := (decides cmem).

(** Policies only decide about connections of the peers they capture, which belong to the configuration. *)
Definition stays (pols : list policy) : Prop := forall p ing pt a, In p pols -> space pt -> decides ing pt p a ->
  pt_in (here src dst ing pt) (policy_captured p ing) /\ member ps (here src dst ing pt).
Context (ST : forall n pols, In (n, pols) ls -> stays pols).

Lemma verdict_stays : forall pols ing pt a, stays pols -> space pt -> first_says (decides ing pt) pols a -> member ps (here src dst ing pt).
Proof using. intros pols ing pt a S Sp (l1 & p & l2 & -> & D & _). apply (S p ing pt a); auto. apply in_or_app. simpl. auto. Qed.
Lemma layer_within : forall n pols pt, stays pols -> space pt -> lallows n pols pt -> anywhere ps (src pt) /\ anywhere ps (dst pt).
Proof using.
  intros n pols pt S Sp [H1 H2]. unfold layer_in in H1. unfold layer_out in H2.
  assert (E : forall ing, dir_explicit src dst cmem ps n pols ing pt \/ dir_default src dst tcp cmem ps n pols ing pt ->
              member ps (here src dst ing pt) \/ (anywhere ps (src pt) /\ anywhere ps (dst pt))).
  { intros ing [H|H].
    - left. unfold dir_explicit, k8s_explicit in H.
      destruct n; [destruct H as [H|[H _]]| |destruct H as [H|[H _]]|]; eapply verdict_stays; eauto.
    - unfold dir_default, k8s_default, istio_default, pod, anywhere_no_dns, anywhere, here, there in *.
      clear - H. destruct n; try (left; exact (proj1 H)); destruct H as [(_ & [H1|H1] & [H2|H2])|(_ & H)]; try (right; tauto); destruct ing; left; tauto. }
  assert (E1 : member ps (dst pt) \/ (anywhere ps (src pt) /\ anywhere ps (dst pt)) \/ (pod ps (src pt) /\ is_addr (dst pt))).
  { destruct H1 as [H|[H|H]]; [| |tauto]; destruct (E true) as [X|X]; auto. }
  assert (E2 : member ps (src pt) \/ (anywhere ps (src pt) /\ anywhere ps (dst pt)) \/ (is_addr (src pt) /\ pod ps (dst pt))).
  { destruct H2 as [H|[H|H]]; [| |tauto]; destruct (E false) as [X|X]; auto. }
  unfold anywhere, pod in *. clear - E1 E2. tauto.
Qed.
Lemma stays_nil : stays [].
Proof using. intros p ing pt a []. Qed.

Definition all_of : C := all_allowed (config_conns A ps ls only_all_allowed).
Definition explicit_of : C := allowed (config_conns A ps ls only_allowed).

Lemma all_within : cok all_of /\ within ps all_of.
Proof using L HC LO ST.
  destruct (config_all_spec A _ _ _ _ _ _ _ _ L ps HC ls LO) as [K M]. fold all_of in K, M. split; auto.
  intros pt Sp H. apply M in H as [H _]; auto. destruct (pbool (host_eps ps)); [|auto]. destruct (lget ls LK8sCalico); auto.
  apply (layer_within LK8sCalico [] pt stays_nil Sp H).
Qed.

(** Only one layer takes part. *)
Definition one_layer : Prop := exists n pols, ls = [(n, pols)] /\ (~ has_hep ps \/ n = LK8sCalico).

Lemma all_solid : (exists pt, space pt /\ cmem pt all_of) \/ one_layer -> solid all_of.
Proof using L QL HC LO ST.
  intros [(pt & Sp & M)|(n & pols & E & NH)] y Ky.
  { apply (law l_safe_nonempty) with (pt := pt); auto. apply all_within. }
  destruct (LO n pols) as [O1 O2]; [rewrite E; left; auto|].
  destruct (layer_conns_spec A _ _ _ _ _ _ _ _ L ps HC n pols only_all_allowed O1 O2 (fun _ => eq_refl)) as (_ & _ & (_ & _ & X) & _ & M).
  destruct (all_group vis ps HC) as [G1 G2].
  set (start := c_rect A (Some (peers_group ps true true)) (Some (peers_group ps true true)) None).
  assert (W : cok start) by (apply (law l_rect_ok); auto).
  assert (W2 : forall pt, space pt -> (cmem pt start <-> anywhere ps (src pt) /\ anywhere ps (dst pt))).
  { intros pt Sp. unfold start. rewrite (law l_rect) by (auto; cbn [opt]; auto). cbn [opt]. rewrite !G2. tauto. }
  assert (Ea : all_of = c_and A start (all_allowed (layer_conns A n ps pols only_all_allowed))).
  { unfold all_of, config_conns. rewrite E. cbn [fold_left all_allowed].
    assert (Es : all_allowed (config_start A ps [(n, pols)] only_all_allowed) = start).
    { unfold config_start. destruct (pbool (host_eps ps)) eqn:Eh; auto. apply (host_eps_bool vis ps HC) in Eh.
      destruct NH as [NH| ->]; [contradiction|]. reflexivity. }
    unfold config_step. cbn [fst snd all_allowed only_all_allowed mkfilter f_all orb]. rewrite Es. destruct (lname_eqb n LK8sCalico); reflexivity. }
  set (lc := all_allowed (layer_conns A n ps pols only_all_allowed)) in *.
  destruct (c_bool A lc) eqn:B.
  - apply (law l_bool lc X) in B as (pt & Sp & Mp). apply (law l_safe_nonempty) with (pt := pt); auto; [apply all_within|].
    rewrite Ea, (law l_and) by auto. split; auto. apply W2; auto. destruct (M pt Sp) as (_ & _ & M3). apply M3 in Mp as [_ Mp].
    apply (layer_within n pols); auto. apply (ST n). rewrite E. left; auto.
  - rewrite Ea. apply (qlaw q_safe_and_empty); auto. intros pt Sp Mp.
    assert (Y : c_bool A lc = true) by (apply (law l_bool lc X); exists pt; auto). congruence.
Qed.

(** Explicitly allowed connections, without host endpoints. *)
Lemma explicit_spec : ~ has_hep ps -> cok explicit_of /\ within ps explicit_of /\
  forall pt, space pt -> (cmem pt explicit_of <-> cmem pt all_of /\ exists n pols, In (n, pols) ls /\ layer_allows_explicitly src dst tcp cmem ps n pols pt).
Proof using L HC LO ST.
  intros NH. destruct (config_nohep_spec A _ _ _ _ _ _ _ _ L ps HC ls only_allowed LO NH (fun _ => eq_refl)) as ((_ & K & _) & _ & _ & M).
  fold explicit_of in K, M. destruct (config_nohep_spec A _ _ _ _ _ _ _ _ L ps HC ls only_all_allowed LO NH (fun _ => eq_refl)) as (_ & _ & _ & M').
  fold all_of in M'.
  assert (S : forall pt, space pt -> (cmem pt explicit_of <-> cmem pt all_of /\ exists n pols, In (n, pols) ls /\ layer_allows_explicitly src dst tcp cmem ps n pols pt)).
  { intros pt Sp. destruct (M pt Sp) as (M1 & M2 & _). destruct (M' pt Sp) as (M3 & _ & _). rewrite M2, M1, M3.
    cbn [only_allowed only_all_allowed mkfilter f_allowed f_all orb]. tauto. }
  split; auto. split; auto. intros pt Sp H. apply S in H as [H _]; auto. apply all_within; auto.
Qed.
Lemma explicit_solid : ~ has_hep ps -> (exists pt, space pt /\ cmem pt explicit_of) \/ one_layer -> solid explicit_of.
Proof using L QL HC LO ST.
  intros NH [(pt & Sp & M)|(n & pols & E & _)] y Ky.
  { apply (law l_safe_nonempty) with (pt := pt); auto. apply explicit_spec; auto. }
  destruct (LO n pols) as [O1 O2]; [rewrite E; left; auto|].
  destruct (layer_conns_spec A _ _ _ _ _ _ _ _ L ps HC n pols only_allowed O1 O2 (fun _ => eq_refl)) as (_ & _ & (X1 & X2 & X3) & X4 & M).
  set (lc := layer_conns A n ps pols only_allowed) in *.
  destruct (explicit_spec NH) as (KE & _ & ME).
  destruct (c_bool A (allowed lc)) eqn:B.
  - apply (law l_bool _ X1) in B as (pt & Sp & Mp). apply (law l_safe_nonempty) with (pt := pt); auto.
    apply ME; auto. destruct (M pt Sp) as (M1 & _ & _). apply M1 in Mp as [_ Mp].
    assert (SP : stays pols) by (apply (ST n); rewrite E; left; auto).
    assert (LA : lallows n pols pt) by (unfold layer_allows_explicitly in Mp; unfold layer_allows, layer_in, layer_out in *; tauto).
    split; [|exists n, pols; rewrite E; simpl; auto].
    destruct (config_nohep_spec A _ _ _ _ _ _ _ _ L ps HC ls only_all_allowed LO NH (fun _ => eq_refl)) as (_ & _ & _ & M').
    destruct (M' pt Sp) as (M3 & _ & _). apply M3. split; auto. destruct (layer_within n pols pt SP Sp LA). split; auto. split; auto.
    intros n' p' Hn. rewrite E in Hn. destruct Hn as [Hn|[]]. injection Hn as <- <-. auto.
  - assert (NE : forall pt, space pt -> ~ cmem pt (allowed lc)).
    { intros pt Sp Mp. assert (Y : c_bool A (allowed lc) = true) by (apply (law l_bool _ X1); exists pt; auto). congruence. }
    assert (Ee : exists z, cok z /\ explicit_of = c_and A (c_empty A) z).
    { unfold explicit_of, config_conns. rewrite E. cbn [fold_left allowed].
      set (st := config_start A ps [(n, pols)] only_allowed).
      assert (Es : st = PConns [] (c_empty A) (c_empty A) (c_empty A) (c_rect A (Some (peers_group ps true true)) (Some (peers_group ps true true)) None)).
      { unfold st, config_start. destruct (pbool (host_eps ps)) eqn:Eh; auto. exfalso. apply NH. apply (host_eps_bool vis ps HC). auto. }
      destruct (conn_hep_spec A _ _ _ _ _ _ _ _ L ps HC) as [H1 H2].
      assert (HE : forall pt, space pt -> ~ cmem pt (conn_hep A ps)).
      { intros pt Sp. rewrite H2 by auto. intros [[F1 F2]|[F1 F2]]; apply NH; eexists; eauto. }
      assert (SE : forall x, cok x -> c_sub A x (conn_hep A ps) = x) by (intros x Kx; apply (law l_sub_empty_r); auto).
      destruct (all_group vis ps HC) as [G1 G2].
      exists (c_and A (all_allowed st) (all_allowed lc)). split.
      - rewrite Es. apply (law l_and_ok); auto. apply (law l_rect_ok); auto.
      - unfold config_step. cbn [fst snd allowed all_allowed]. change (f_allowed only_allowed) with true. change (f_all only_allowed) with true.
        cbv iota. fold lc.
        assert (En : forall b : bool, allowed (if b then lc else by_filter (c_sub A) lc (conn_hep A ps) (replace_no_all only_allowed)) = allowed lc /\
                     all_allowed (if b then lc else by_filter (c_sub A) lc (conn_hep A ps) (replace_no_all only_allowed)) = all_allowed lc).
        { intros b. destruct b; auto. cbn [by_filter allowed all_allowed replace_no_all only_allowed mkfilter f_allowed f_all orb]. rewrite !SE by auto. auto. }
        destruct (En (lname_eqb n LK8sCalico)) as [-> ->]. rewrite (law l_or_empty_r); [rewrite Es; reflexivity|rewrite Es; apply (law l_empty_ok)|auto|auto]. }
    destruct Ee as (z & Kz & ->). rewrite (qlaw q_and_fresh) by auto. apply (law l_safe_fresh); auto.
Qed.

(** One layer: the sources of its allowed connections matter. *)
Lemma layer_solid : forall n pols, layer_ok A cok csafe vis n true pols -> layer_ok A cok csafe vis n false pols -> stays pols ->
  (exists x, pod ps x) -> solid (all_allowed (layer_conns A n ps pols only_all_allowed)).
Proof using L QL HC.
  intros n pols O1 O2 S (x & Hx) y Ky. unfold layer_conns. cbn [all_allowed only_all_allowed mkfilter f_all orb].
  destruct (xgress_spec A _ _ _ _ _ _ _ _ L ps HC n pols only_all_allowed true O1) as (_ & _ & (_ & _ & Ki) & Mi).
  destruct (xgress_spec A _ _ _ _ _ _ _ _ L ps HC n pols only_all_allowed false O2) as (_ & _ & (_ & _ & Ke) & _).
  change (mkfilter false false false true) with only_all_allowed.
  set (i := xgress A n ps pols only_all_allowed true) in *. clearbody i. set (e := xgress A n ps pols only_all_allowed false) in *. clearbody e.
  destruct (pod_group vis ps HC) as [P1 P2]. destruct (all_ips_set_spec vis) as [W1 W2].
  assert (X1 : cok (c_rect A (Some (peers_group ps false false)) (Some all_ips_set) None)) by (apply (law l_rect_ok); auto).
  assert (X2 : cok (c_rect A (Some all_ips_set) (Some (peers_group ps false false)) None)) by (apply (law l_rect_ok); auto).
  assert (Vx : anywhere vis x). { left. destruct Hx as [Hx _]. destruct x as [k m|z]; [|destruct Hx]. cbn [member] in *. apply HC in Hx. tauto. }
  destruct (qlaw q_point x (PA 0) true Vx) as (p & Sp & Ep & Ed & Et); [right; apply v4_addr|].
  destruct (qlaw q_point (PA 0) (PA 0) true) as (q & Sq & Eq & _); [right; apply v4_addr|right; apply v4_addr|].
  destruct (qlaw q_put p q Sp Sq) as (U1 & U2 & U3 & U4).
  assert (A0 : is_addr (PA 0)) by apply v4_addr.
  refine (proj2 (qlaw q_safe_and _ _ y p q _ _ Ky Sp Sq _ _)); [apply (law l_or_ok); auto|apply (law l_or_ok); auto| |].
  - rewrite (law l_or) by auto. right. rewrite (law l_rect) by (auto; cbn [opt]; auto). cbn [opt]. rewrite P2, W2, Ep, Ed. auto.
  - rewrite (law l_or) by auto. rewrite (law l_rect) by (auto; cbn [opt]; auto). cbn [opt]. rewrite P2, W2.
    destruct (Mi _ U1) as (_ & _ & M3). rewrite M3 by reflexivity. rewrite U2, Eq. intros [H|H].
    2:{ destruct H as ([H _] & _). exact H. }
    destruct H as [H|H].
    + assert (Hm : member ps (here src dst true (put p q))).
      { unfold dir_explicit, k8s_explicit in H. destruct n; try destruct H as [H|[H _]]; eapply verdict_stays; eauto. }
      unfold here in Hm. rewrite U3, Ed in Hm. exact Hm.
    + unfold dir_default, k8s_default, istio_default, pod, here, there in H.
      rewrite U2, U3, U4, Eq, Ed, Et in H. cbn [member] in H. destruct n; intuition discriminate.
Qed.
Lemma layer_all_spec : forall n pols, layer_ok A cok csafe vis n true pols -> layer_ok A cok csafe vis n false pols -> stays pols ->
  let r := all_allowed (layer_conns A n ps pols only_all_allowed) in
  cok r /\ within ps r /\ forall pt, space pt -> (cmem pt r <-> lallows n pols pt).
Proof using L HC.
  intros n pols O1 O2 S. cbv zeta.
  destruct (layer_conns_spec A _ _ _ _ _ _ _ _ L ps HC n pols only_all_allowed O1 O2 (fun _ => eq_refl)) as (_ & _ & (_ & _ & X) & _ & M).
  assert (E : forall pt, space pt -> (cmem pt (all_allowed (layer_conns A n ps pols only_all_allowed)) <-> lallows n pols pt)).
  { intros pt Sp. destruct (M pt Sp) as (_ & _ & ->). cbn [only_all_allowed mkfilter f_all orb]. tauto. }
  split; auto. split; auto. intros pt Sp H. apply E in H; auto. apply (layer_within n pols); auto.
Qed.
End OneConfig.

(** ** Equal policies *)
Section Equal.
Context (rid : @rule C -> @rule C -> bool) (RS : forall r s, rid r s = true -> r = s).
Local Notation decides := (decides cmem).
Local Notation pol_ok := (policy_ok cok vis).

Definition alike (p q : policy) : Prop := (forall ing pt a, space pt -> (decides ing pt p a <-> decides ing pt q a)) /\
  (forall ing x, pt_in x (policy_captured p ing) <-> pt_in x (policy_captured q ing)) /\ istio_capf p = istio_capf q.

Lemma list_eqb_Forall2 : forall {X} (f : X -> X -> bool) l m, list_eqb f l m = true <-> Forall2 (fun x y => f x y = true) l m.
Proof using.
  intros X f. induction l as [|x l IH]; intros [|y m]; cbn [list_eqb]; split; intro H; try discriminate; try (constructor); try (inversion H; fail).
  - apply andb_true_iff in H as [H _]. exact H.
  - apply andb_true_iff in H as [_ H]. apply IH; auto.
  - inversion H; subst. apply andb_true_iff. split; auto. apply IH; auto.
Qed.
Lemma some_rule_eqb : forall c l m pt, Forall2 (fun r s => rule_eqb A rid c r s = true) l m -> (forall r, In r l -> cok (r_props r)) ->
  (forall r, In r m -> cok (r_props r)) -> space pt ->
  Forall2 (fun r s => (cmem pt (r_props r) <-> cmem pt (r_props s)) /\ (c = CCalico -> r_action r = r_action s)) l m.
Proof using L RS.
  intros c l m pt H. induction H as [|r s l m E H IH]; intros K1 K2 Sp; constructor.
  - assert (Kr : cok (r_props r)) by (apply K1; left; auto). assert (Ks : cok (r_props s)) by (apply K2; left; auto).
    assert (AE : forall a b, action_eqb a b = true -> a = b) by (intros [] []; cbn; auto; discriminate).
    unfold rule_eqb in E. destruct c; try solve [split; [apply (law l_eqb); auto|discriminate]].
    + apply andb_true_iff in E as [E1 E2]. split; [apply (law l_eqb); auto|auto].
    + apply RS in E. subst. split; [reflexivity|discriminate].
  - apply IH; auto; intros t Ht; [apply K1|apply K2]; right; auto.
Qed.
Lemma Forall2_exists : forall {X} (P Q : X -> Prop) l m, Forall2 (fun x y => P x <-> Q y) l m ->
  ((exists x, In x l /\ P x) <-> exists y, In y m /\ Q y).
Proof using.
  intros X P Q0 l m H. induction H as [|x y l m E H IH].
  - split; intros (x & [] & _).
  - split.
    + intros (z & [<-|Hz] & Pz); [exists y; simpl; tauto|]. destruct (proj1 IH) as (w & Hw & Qw); [eauto|]. exists w. simpl. auto.
    + intros (z & [<-|Hz] & Pz); [exists x; simpl; tauto|]. destruct (proj2 IH) as (w & Hw & Qw); [eauto|]. exists w. simpl. auto.
Qed.
Lemma Forall2_first : forall {X} (P Q : X -> action -> Prop) l m, Forall2 (fun x y => forall a, P x a <-> Q y a) l m ->
  forall a, first_says P l a <-> first_says Q m a.
Proof using.
  intros X P Q0.
  assert (H1 : forall (P Q : X -> action -> Prop) l m, Forall2 (fun x y => forall a, P x a <-> Q y a) l m -> forall a, first_says P l a -> first_says Q m a).
  { clear. intros P Q l m H. induction H as [|x y l m E H IH]; intros a (l1 & z & l2 & El & Pz & N).
    - destruct l1; discriminate.
    - destruct l1 as [|w l1]; cbn [app] in El; injection El as -> El.
      + exists [], y, m. split; auto. split; [apply E; auto|intros w b []].
      + subst l. destruct (IH a) as (m1 & z' & m2 & Em & Qz & N').
        { exists l1, z, l2. split; auto. split; auto. intros v b Hv. apply N. right; auto. }
        exists (y :: m1), z', m2. split; [rewrite Em; auto|]. split; auto. intros v b [<-|Hv]; [|apply N'; auto].
        intros Qy. apply (N w b); [left; auto|]. apply E; auto. }
  intros l m H a. split; [apply H1; auto|]. apply (H1 Q0 P m l). clear - H. induction H; constructor; auto. intros a. symmetry. auto.
Qed.

Lemma eqb_alike : forall p q, pol_ok p -> pol_ok q -> p_kind p = p_kind q -> policy_eqb A rid p q = true ->
  (forall ing pt a, space pt -> decides ing pt p a -> pt_in (here src dst ing pt) (policy_captured p ing)) ->
  (forall ing pt a, space pt -> decides ing pt q a -> pt_in (here src dst ing pt) (policy_captured q ing)) ->
  alike p q.
Proof using L RS.
  intros p q (Kp1 & Kp2 & Kp3) (Kq1 & Kq2 & Kq3) EK E Sp Sq. unfold policy_eqb in E. rewrite <- EK in E.
  apply andb_true_iff in E as [E Ec]. apply andb_true_iff in E as [_ E].
  repeat (apply andb_true_iff in E as [E ?]).
  match goal with H : peq _ _ = true |- _ => rename H into Epe end.
  pose proof (proj1 (peq_spec vis _ _ Kp3 Kq3) Epe) as Epe2. clear Epe. rename Epe2 into Epe.
  match goal with H : Bool.eqb (p_affects_in p) _ = true |- _ => apply Bool.eqb_prop in H; rename H into Ei end.
  match goal with H : Bool.eqb (p_affects_eg p) _ = true |- _ => apply Bool.eqb_prop in H; rename H into Ee end.
  match goal with H : list_eqb _ (p_ingress p) _ = true |- _ => apply list_eqb_Forall2 in H; rename H into Fi end.
  match goal with H : list_eqb _ (p_egress p) _ = true |- _ => apply list_eqb_Forall2 in H; rename H into Fe end.
  set (c := class_of (p_kind p)) in *.
  assert (AE : forall a b, action_eqb a b = true -> a = b) by (intros [] []; cbn; auto; discriminate).
  assert (EA : c = CIstioAP \/ c = CGateway -> p_action p = p_action q) by (intros [X|X]; rewrite X in Ec; auto).
  assert (Cap : forall ing x, pt_in x (policy_captured p ing) <-> pt_in x (policy_captured q ing)).
  { intros ing x. unfold policy_captured. rewrite <- EK. fold c. rewrite <- Ei, <- Ee.
    destruct c, ing; try destruct (p_affects_in p); try destruct (p_affects_eg p); try tauto; apply Epe. }
  assert (Says : forall ing pt a, space pt -> (policy_says cmem ing pt p a <-> policy_says cmem ing pt q a)).
  { intros ing pt a Spt. unfold policy_says. cbv zeta. rewrite <- EK. fold c.
    pose proof (some_rule_eqb c _ _ pt Fi Kp1 Kq1 Spt) as Gi. pose proof (some_rule_eqb c _ _ pt Fe Kp2 Kq2 Spt) as Ge.
    assert (Hi : (exists r, In r (p_ingress p) /\ cmem pt (r_props r)) <-> exists r, In r (p_ingress q) /\ cmem pt (r_props r)).
    { apply Forall2_exists. clear - Gi. induction Gi; constructor; tauto. }
    assert (He : (exists r, In r (p_egress p) /\ cmem pt (r_props r)) <-> exists r, In r (p_egress q) /\ cmem pt (r_props r)).
    { apply Forall2_exists. clear - Ge. induction Ge; constructor; tauto. }
    assert (Fc : c = CCalico -> forall l m, Forall2 (fun r s => (cmem pt (r_props r) <-> cmem pt (r_props s)) /\ (c = CCalico -> r_action r = r_action s)) l m ->
                 forall a, first_says (rule_says cmem pt) l a <-> first_says (rule_says cmem pt) m a).
    { intros X l m F. apply Forall2_first. clear - F X. induction F as [|r s l m [F1 F2] F IH]; constructor; auto.
      intros a. unfold rule_says. rewrite F1, (F2 X). tauto. }
    destruct c eqn:Ecl; destruct ing; try tauto; try (apply Fc; auto); rewrite ?EA by auto; tauto. }
  split; [|split; [exact Cap|]].
  - assert (NN : forall s x, pt_in x s -> s <> []) by (intros s x Hs ->; revert Hs; apply pbool_false; reflexivity).
    intros ing pt a Spt. split; intros D.
    + pose proof (Sp ing pt a Spt D) as X. destruct D as [D1 D2]. split; [|apply Says; auto]. apply Cap in X. eapply NN; eauto.
    + pose proof (Sq ing pt a Spt D) as X. destruct D as [D1 D2]. split; [|apply Says; auto]. apply Cap in X. eapply NN; eauto.
  - unfold istio_capf. rewrite <- EK. unfold c in EA. destruct (p_kind p); cbn [class_of] in EA; rewrite ?EA by auto; reflexivity.
Qed.
End Equal.

Lemma alike_layer : forall ps1 ps2 n pols1 pols2 pt, Forall2 alike pols1 pols2 -> (forall x, member ps1 x <-> member ps2 x) -> space pt ->
  (layer_allows src dst tcp cmem ps1 n pols1 pt <-> layer_allows src dst tcp cmem ps2 n pols2 pt).
Proof using.
  intros ps1 ps2 n pols1 pols2 pt F M Sp.
  assert (V : forall ing a, first_says (decides cmem ing pt) pols1 a <-> first_says (decides cmem ing pt) pols2 a).
  { intros ing. apply Forall2_first. clear - F Sp. induction F as [|p q l m [H _] F IH]; constructor; auto. }
  assert (Ex : forall (P Q : policy -> Prop), (forall p q, alike p q -> (P p <-> Q q)) -> ((exists p, In p pols1 /\ P p) <-> exists p, In p pols2 /\ Q p)).
  { intros P Q0 H. apply Forall2_exists. clear - F H. induction F; constructor; auto. }
  assert (Ci : forall ing x, captured_by istio_capf pols1 ing x <-> captured_by istio_capf pols2 ing x).
  { intros ing x. unfold captured_by. apply Ex. intros p q (_ & H1 & H2). rewrite H1, H2. tauto. }
  assert (Ca : forall ing x, captured_by any_policy pols1 ing x <-> captured_by any_policy pols2 ing x).
  { intros ing x. unfold captured_by, any_policy. apply Ex. intros p q (_ & H1 & _). rewrite H1. tauto. }
  assert (AW : forall x, anywhere ps1 x <-> anywhere ps2 x) by (intros x; unfold anywhere; rewrite M; tauto).
  assert (AN : forall x, anywhere_no_dns ps1 x <-> anywhere_no_dns ps2 x) by (intros x; unfold anywhere_no_dns; rewrite M; tauto).
  assert (PD : forall x, pod ps1 x <-> pod ps2 x) by (intros x; unfold pod; rewrite M; tauto).
  assert (XU : forall ing, (exists x, pod ps1 x /\ ~ captured_by istio_capf pols1 ing x) <-> (exists x, pod ps2 x /\ ~ captured_by istio_capf pols2 ing x)).
  { intros ing. split; intros (x & H1 & H2); exists x; rewrite Ci, PD in *; auto. }
  unfold layer_allows, layer_in, layer_out, dir_explicit, dir_default, k8s_explicit, k8s_default, istio_default.
  destruct n; rewrite ?V, ?PD, ?Ca, ?Ci, ?AW, ?AN, ?M, ?XU; reflexivity.
Qed.
End Facts.
