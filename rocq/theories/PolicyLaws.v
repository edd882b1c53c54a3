(** * What the policy model assumes about connection sets, and facts about peer groups. *)
From Coq Require Import ZArith List Bool Arith Lia String.
From Verif Require Import IntervalModel IntervalFacts PortProtoModel PeerModel PeerFacts PeerSetFacts PolicyModel.
Import ListNotations.
Local Open Scope nat_scope.

(** Peer sets whose named members are registered in [reg] and whose IP blocks are well formed. *)
Definition pok (reg : list peer) (s : peerset) : Prop :=
  ps_ok s /\ forall k n, In (Named k n) s -> In (Named k n) reg.
Definition opt {X} (f : X -> Prop) (o : option X) : Prop := match o with Some x => f x | None => True end.

(** Laws of connection sets.  [cmem] is membership of a connection, [space] the connections of the current domain,
    [cok] well-formedness, [csafe x y] says that [x - y] is computed correctly. *)
Record claws {C Pt : Type} (A : cops C) (src dst : Pt -> point) (tcp : Pt -> bool) (space : Pt -> Prop)
       (cmem : Pt -> C -> Prop) (cok : C -> Prop) (csafe : C -> C -> Prop) (reg : list peer) : Prop := CLaws {
  l_dec : forall x pt, cok x -> cmem pt x \/ ~ cmem pt x;
  l_empty_ok : cok (c_empty A);
  l_empty : forall pt, ~ cmem pt (c_empty A);
  l_or_ok : forall x y, cok x -> cok y -> cok (c_or A x y);
  l_or : forall x y pt, cok x -> cok y -> space pt -> (cmem pt (c_or A x y) <-> cmem pt x \/ cmem pt y);
  l_and_ok : forall x y, cok x -> cok y -> cok (c_and A x y);
  l_and : forall x y pt, cok x -> cok y -> space pt -> (cmem pt (c_and A x y) <-> cmem pt x /\ cmem pt y);
  l_sub_ok : forall x y, cok x -> cok y -> csafe x y -> cok (c_sub A x y);
  l_sub : forall x y pt, cok x -> cok y -> csafe x y -> space pt -> (cmem pt (c_sub A x y) <-> cmem pt x /\ ~ cmem pt y);
  l_bool : forall x, cok x -> (c_bool A x = true <-> exists pt, space pt /\ cmem pt x);
  l_cont : forall x y, cok x -> cok y -> (c_cont A x y = true <-> forall pt, space pt -> cmem pt x -> cmem pt y);
  l_eqb : forall x y, cok x -> cok y -> c_eqb A x y = true -> forall pt, space pt -> (cmem pt x <-> cmem pt y);
  l_rect_ok : forall s d pr, opt (pok reg) s -> opt (pok reg) d -> cok (c_rect A s d pr);
  l_rect : forall s d pr pt, opt (pok reg) s -> opt (pok reg) d -> space pt ->
    (cmem pt (c_rect A s d pr) <-> opt (pt_in (src pt)) s /\ opt (pt_in (dst pt)) d /\ opt (eq (tcp pt)) pr);
  (* subtraction is right whenever the left operand is non-empty or the right one is empty ... *)
  l_safe_nonempty : forall x y pt, cok x -> cok y -> space pt -> cmem pt x -> csafe x y;
  l_safe_right_empty : forall x y, cok x -> cok y -> (forall pt, space pt -> ~ cmem pt y) -> csafe x y;
  (* ... or the left operand is a fresh empty object or a rectangle *)
  l_safe_fresh : forall y, cok y -> csafe (c_empty A) y;
  l_safe_rect : forall s d pr y, opt (pok reg) s -> opt (pok reg) d -> cok y -> csafe (c_rect A s d pr) y;
  (* ... or the left operand is what remains after subtracting a rectangle that constrains the sources *)
  l_safe_after_rect : forall x s d pr y, cok x -> pok reg s -> opt (pok reg) d -> cok y ->
    (exists pt, space pt /\ cmem pt (c_rect A (Some s) d pr)) -> (exists pt, space pt /\ ~ pt_in (src pt) s) ->
    csafe x (c_rect A (Some s) d pr) -> csafe (c_sub A x (c_rect A (Some s) d pr)) y;
  l_or_empty_r : forall x y, cok x -> cok y -> (forall pt, space pt -> ~ cmem pt y) -> c_or A x y = x;
  l_sub_empty_r : forall x y, cok x -> cok y -> (forall pt, space pt -> ~ cmem pt y) -> c_sub A x y = x;
  l_sub_fresh : forall y, cok y -> c_sub A (c_empty A) y = c_empty A
}.

(** ** Peer groups *)
Lemma all_ips_eq : all_ips = [Ivl 0 v4max; Ivl v6min v6max].
Proof. reflexivity. Qed.
Local Opaque v4max v6min v6max.
Lemma all_ips_ipset : ipset all_ips.
Proof.
  rewrite all_ips_eq. pose proof consts as (K1 & K2 & K3). split.
  - cbn. repeat split; lia.
  - intros y [i [[<-|[<-|[]]] H]]; cbn [lo hi] in H; unfold vpos; lia.
Qed.
Lemma all_ips_mem : forall y, mem y all_ips <-> vpos y.
Proof.
  intros y. rewrite all_ips_eq. unfold vpos. split.
  - intros [i [[<-|[<-|[]]] H]]; cbn [lo hi] in H; lia.
  - intros [H|H]; [exists (Ivl 0 v4max)|exists (Ivl v6min v6max)]; cbn [lo hi In]; split; auto; lia.
Qed.

Section Groups.
Context (reg : list peer).

Lemma pok_nil : pok reg [].
Proof. split; [intros l []|intros k n []]. Qed.
Lemma pok_union : forall s t, pok reg s -> pok reg t -> pok reg (ps_union s t).
Proof.
  intros s t [A1 A2] [B1 B2]. split; [apply ps_ok_union; auto|]. intros k n H. apply ps_union_In in H as [H|H]; auto.
Qed.
Lemma psub_spec : forall s t, pok reg s -> pok reg t ->
  pok reg (psub s t) /\ forall x, pt_in x (psub s t) <-> pt_in x s /\ ~ pt_in x t.
Proof.
  intros s t [A1 A2] [B1 B2]. unfold psub. destruct (ps_diff_ok s t A1 B1) as (r & -> & R1 & R2).
  split; auto. split; auto. intros k n H. apply (R2 (PN k n)) in H as [H _]. cbn [pt_in] in H. auto.
Qed.
Lemma pinter_spec : forall s t, pok reg s -> pok reg t ->
  pok reg (pinter s t) /\ forall x, pt_in x (pinter s t) <-> pt_in x s /\ pt_in x t.
Proof.
  intros s t [A1 A2] [B1 B2]. unfold pinter. destruct (ps_inter_ok s t A1 B1) as (r & -> & R1 & R2).
  split; auto. split; auto. intros k n H. apply (R2 (PN k n)) in H as [H _]. cbn [pt_in] in H. auto.
Qed.
Lemma pbool_false : forall s x, pbool s = false -> ~ pt_in x s.
Proof. intros [|p s] x E; [|discriminate]. destruct x; cbn [pt_in]; [intros []|intros (l & [] & _)]. Qed.

(** The container's peers: named, registered. *)
Definition container (ps : peerset) : Prop := forall p, In p ps -> In p reg /\ is_block p = false.

Definition named_dns (x : point) : Prop := match x with PN k _ => k = kind_dns | _ => False end.
Definition named_hep (x : point) : Prop := match x with PN k _ => k = 1 | _ => False end.
Definition is_addr (x : point) : Prop := match x with PA y => vpos y | _ => False end.
Definition member (ps : peerset) (x : point) : Prop := match x with PN k n => In (Named k n) ps | _ => False end.

Lemma group_fold_In : forall (f : peer -> bool) ps acc q,
  In q (fold_left (fun r p => if f p then r else padd p r) ps acc) <-> In q acc \/ (In q ps /\ f q = false).
Proof.
  intros f. induction ps as [|p ps IH]; intros acc q; cbn [fold_left In]; [tauto|].
  rewrite IH. destruct (f p) eqn:E.
  - split; [tauto|]. intros [H|[[->|H] F]]; auto. congruence.
  - rewrite padd_In. split; [intros [[->|H]|H]; tauto|]. intros [H|[[->|H] F]]; auto.
Qed.
Lemma dns_fold_In : forall (f : peer -> bool) ps acc q,
  In q (fold_left (fun r p => if f p then padd p r else r) ps acc) <-> In q acc \/ (In q ps /\ f q = true).
Proof.
  intros f. induction ps as [|p ps IH]; intros acc q; cbn [fold_left In]; [tauto|].
  rewrite IH. destruct (f p) eqn:E.
  - rewrite padd_In. split; [intros [[->|H]|H]; tauto|]. intros [H|[[->|H] F]]; auto.
  - split; [tauto|]. intros [H|[[->|H] F]]; auto. congruence.
Qed.

Lemma peers_group_spec : forall ps ips dns, container ps ->
  pok reg (peers_group ps ips dns) /\
  forall x, pt_in x (peers_group ps ips dns) <->
    (member ps x /\ (dns = true \/ ~ named_dns x)) \/ (ips = true /\ is_addr x).
Proof.
  intros ps ips dns HC.
  set (base := fold_left (fun r p => if is_dns p && negb dns then r else padd p r) ps []).
  assert (B : forall q, In q base <-> In q ps /\ is_dns q && negb dns = false).
  { intros q. unfold base. rewrite (group_fold_In (fun p => is_dns p && negb dns)). simpl. tauto. }
  assert (BN : forall l, ~ In (Block l) base).
  { intros l H. apply B in H as [H _]. apply HC in H as [_ H]. discriminate. }
  assert (BR : forall k n, In (Named k n) base -> In (Named k n) reg) by (intros k n H; apply B in H as [H _]; apply HC in H; tauto).
  assert (BM : forall x, pt_in x base <-> member ps x /\ (dns = true \/ ~ named_dns x)).
  { intros [k n|y]; cbn [pt_in member named_dns].
    - rewrite B. cbn [is_dns]. destruct (Nat.eqb_spec k kind_dns), dns; cbn; intuition congruence.
    - split; [intros (l & H & _); exfalso; apply (BN l H)|tauto]. }
  unfold peers_group. fold base. destruct ips.
  - split.
    + split.
      * intros l H. apply padd_In in H as [H|H]; [injection H as ->; apply all_ips_ipset|exfalso; apply (BN l H)].
      * intros k n H. apply padd_In in H as [H|H]; [discriminate|auto].
    + intros [k n|y].
      * transitivity (pt_in (PN k n) base); [cbn [pt_in]; rewrite padd_In; intuition congruence|].
        rewrite BM. cbn [is_addr]. tauto.
      * cbn [pt_in member is_addr]. split.
        -- intros (l & H & M). apply padd_In in H as [H|H]; [|exfalso; apply (BN l H)]. injection H as ->.
           right. split; auto. apply all_ips_mem; auto.
        -- intros [[[] _]|[_ H]]. exists all_ips. rewrite padd_In. split; auto. apply all_ips_mem; auto.
  - split.
    + split; [intros l H; exfalso; apply (BN l H)|auto].
    + intros x. rewrite BM. intuition discriminate.
Qed.

Lemma all_dns_spec : forall ps, container ps ->
  pok reg (all_dns ps) /\ forall x, pt_in x (all_dns ps) <-> member ps x /\ named_dns x.
Proof.
  intros ps HC. assert (B : forall q, In q (all_dns ps) <-> In q ps /\ is_dns q = true).
  { intros q. unfold all_dns. rewrite (dns_fold_In is_dns). simpl. tauto. }
  split.
  - split; [intros l H|intros k n H]; apply B in H as [H _]; apply HC in H; [destruct H; discriminate|tauto].
  - intros [k n|y]; cbn [pt_in member named_dns].
    + rewrite B. cbn [is_dns]. rewrite Nat.eqb_eq. tauto.
    + split; [intros (l & H & _); apply B in H as [_ H]; discriminate|tauto].
Qed.

Lemma all_ips_set_spec : pok reg all_ips_set /\ forall x, pt_in x all_ips_set <-> is_addr x.
Proof.
  unfold all_ips_set. split.
  - split; [intros l [H|[]]; injection H as <-; apply all_ips_ipset|intros k n [H|[]]; discriminate].
  - intros [k n|y]; cbn [pt_in is_addr].
    + split; [intros [H|[]]; discriminate|tauto].
    + split; [intros (l & [H|[]] & M); injection H as <-; apply all_ips_mem; auto|].
      intros H. exists all_ips. split; [left; auto|apply all_ips_mem; auto].
Qed.

Lemma filter_hep_spec : forall s b, pok reg s ->
  pok reg (filter (fun p => Bool.eqb (is_hep p) b) s) /\
  forall x, (is_addr x -> False) -> (pt_in x (filter (fun p => Bool.eqb (is_hep p) b) s) <-> pt_in x s /\ (b = true <-> named_hep x)).
Proof.
  intros s b [H1 H2]. split.
  - split; [intros l H; apply filter_In in H; apply H1; tauto|intros k n H; apply filter_In in H; apply H2; tauto].
  - intros [k n|y] Ha; cbn [pt_in named_hep].
    + rewrite filter_In. cbn [is_hep]. destruct (Nat.eqb_spec k 1), b; cbn; intuition congruence.
    + destruct b; split.
      * intros (l & H & _). apply filter_In in H as [_ H]. discriminate.
      * intros (_ & H). exfalso. apply H; auto.
      * intros (l & H & M). apply filter_In in H as [H _]. split; [exists l; auto|]. intuition discriminate.
      * intros ((l & H & M) & _). exists l. split; auto. apply filter_In. auto.
Qed.

(** The peers other than host endpoints, and the host endpoints, of a container. *)
Lemma no_hep_spec : forall ps, container ps ->
  let base := filter (fun p => negb (is_hep p)) (peers_group ps false true) in
  pok reg base /\ forall x, pt_in x base <-> member ps x /\ ~ named_hep x.
Proof.
  intros ps HC. cbv zeta. destruct (peers_group_spec ps false true HC) as [G1 G2].
  assert (E : forall p, negb (is_hep p) = Bool.eqb (is_hep p) false) by (intros p; destruct (is_hep p); auto).
  rewrite (filter_ext _ _ E). destruct (filter_hep_spec _ false G1) as [F1 F2]. split; auto.
  intros [k n|y].
  - rewrite F2 by (cbn; tauto). rewrite G2. cbn [is_addr named_hep member]. intuition congruence.
  - cbn [member]. split; [|tauto]. cbn [pt_in]. intros (l & H & M). apply filter_In in H as [H _].
    assert (X : pt_in (PA y) (peers_group ps false true)) by (exists l; auto).
    apply G2 in X. cbn [member] in X. destruct X as [[[] _]|[X _]]. discriminate.
Qed.
Lemma host_eps_spec : forall ps, container ps ->
  pok reg (host_eps ps) /\ forall x, pt_in x (host_eps ps) <-> member ps x /\ named_hep x.
Proof.
  intros ps HC. unfold host_eps. destruct (peers_group_spec ps false false HC) as [G1 G2].
  assert (E : forall p, is_hep p = Bool.eqb (is_hep p) true) by (intros p; destruct (is_hep p); auto).
  rewrite (filter_ext _ _ E). destruct (filter_hep_spec _ true G1) as [F1 F2]. split; auto.
  intros [k n|y].
  - rewrite F2 by (cbn; tauto). rewrite G2. cbn [is_addr named_hep named_dns member]. unfold kind_dns. intuition congruence.
  - cbn [member]. split; [|tauto]. cbn [pt_in]. intros (l & H & M). apply filter_In in H as [H _].
    assert (X : pt_in (PA y) (peers_group ps false false)) by (exists l; auto).
    apply G2 in X. cbn [member] in X. destruct X as [[[] _]|[X _]]. discriminate.
Qed.
End Groups.
