(** * Connections from a dictionary whose destination ports exclude named ports.

    Extends ConnDict.v: make_conn_props subtracts, per destination peer, the port numbers of the excluded names.
    The subtraction never meets the fault of an emptied object (F2): the objects subtracted in one call all have the same
    first active dimension. *)
From Coq Require Import ZArith List Bool Arith Lia String.
From Verif Require Import IntervalModel IntervalFacts HyperModel HyperFacts HyperOps HyperDims HyperTop HyperInst
                          PropHyperCube ConnModel ConnFacts PortProtoModel PeerModel PeerFacts PeerSetFacts
                          PolicyModel PolicyLaws ConnAlg StdDims ConnDict.
Import ListNotations.
Local Open Scope nat_scope.

(** ** Active dimensions *)
Section Act.
Context {V P : Type} (O : vops V P).

(** The active dimensions of a cube's connections are among the restricted dimensions. *)
Lemma make_props_act vempty all c : make_props O vempty all c = hempty Conn all \/
  forall d, In d (act_of (make_props O vempty all c)) -> veqb O (c d) (vdom O d) = false.
Proof.
  unfold make_props. destruct (ccube_is_empty O vempty all c); auto. destruct (ccube_ordered O all c) as [|q qs] eqn:E; [right; intros d []|].
  unfold add_cube. destruct (forallb (fun p => vbool O (snd p)) (q :: qs)) eqn:F; auto. cbn [hempty cls_of].
  unfold create_from_cube. set (cube := q :: qs) in *.
  assert (Sub : forall l r, reduce_cube O l = Some r -> incl r l).
  { induction l as [|[d v] t IH]; intros r Er; cbn [reduce_cube] in Er; [injection Er as <-; intros x []|].
    destruct (negb (vbool O v)); [discriminate|]. destruct (reduce_cube O t) as [r'|]; [|discriminate].
    destruct (negb (vwhole O d v)); injection Er as <-; intros x Hx; [destruct Hx as [<-|Hx]; [left; auto|right; apply (IH r' eq_refl); auto]|right; apply (IH r' eq_refl); auto]. }
  destruct (reduce_cube O cube) as [[|r rs]|] eqn:Er.
  - right. unfold h_or. cbn [is_all hall act_of orb override]. intros d [].
  - right. intros d Hd. assert (Ha : forall (r : dim * V) rs, act_of (create_aux (r :: rs)) = map fst (r :: rs)).
    { intros [d0 v0] rs0. cbn [create_aux]. destruct rs0; reflexivity. }
    assert (Hb : forall (r : dim * V) rs, hbool (create_aux (r :: rs)) = true /\ is_all (create_aux (r :: rs)) = false).
    { intros [d0 v0] rs0. cbn [create_aux]. destruct rs0; split; reflexivity. }
    assert (X : act_of (override Conn (h_or O all (hempty Conn all) (create_aux (r :: rs)))) = map fst (r :: rs) \/
                act_of (override Conn (h_or O all (hempty Conn all) (create_aux (r :: rs)))) = []).
    { unfold h_or. destruct (Hb r rs) as [-> ->]. cbn [orb negb]. destruct (is_all (hempty Conn all)) eqn:Eall; [right; reflexivity|].
      destruct all as [|a0 al].
      - discriminate Eall.
      - left. cbn [hempty hbool negb]. rewrite <- Ha. destruct (create_aux (r :: rs)); reflexivity. }
    destruct X as [X|X]; rewrite X in Hd; [|destruct Hd]. apply in_map_iff in Hd as ([d' v] & <- & Hd). apply (Sub _ _ Er) in Hd.
    rewrite <- E in Hd. unfold ccube_ordered in Hd. apply in_map_iff in Hd as (x & Ex & Hx). injection Ex as <- <-.
    apply filter_In in Hx as [_ Hx]. apply negb_true_iff in Hx. exact Hx.
  - left. unfold h_or. destruct (is_all (hempty Plain all)) eqn:Ea; [|].
    + destruct all; [|discriminate]. reflexivity.
    + cbn [orb]. destruct all; [discriminate Ea|]. cbn. reflexivity.
Qed.
End Act.

(** ** Dictionaries with excluded names *)
Definition strip_excl (k : cdict) : cdict :=
  CDict (k_src k) (k_dst k) (k_proto k) (k_sports k)
        (match k_dports k with Some q => Some (PortSet (port_set q) (named_ports q) []) | None => None end)
        (k_methods k) (k_hosts k) (k_paths k) (k_type k) (k_code k).
Definition excluded_at (named : peer -> list (string * (Z * Z))) (protos : Z -> Prop) (x : point) (names : list string) (n : Z) : Prop :=
  exists name pr, In name names /\ protos pr /\ named_at named x name n pr.

Section Excl.
Context (dom : dim -> val) (reg vis : list peer) (D : iset).
Context (K : alg_ok dom std_rest reg vis D [Ivl 0 255]).
Context (E3 : dom 3 = VI [Ivl 1 65535]%Z) (E4 : dom 4 = VI [Ivl 1 65535]%Z) (E5 : dom 5 = VI [Ivl 0 8]%Z) (E8 : dom 8 = VI [Ivl 0 254]%Z)
        (E9 : dom 9 = VI [Ivl 0 255]%Z).
Context (named : peer -> list (string * (Z * Z))).
Context (Hn : forall p nm n pr, assoc_s nm (named p) = Some (n, pr) -> (1 <= n <= 65535)%Z).
Context (E6 : dom 6 = VN true []) (E7 : dom 7 = VN true []) (Ewords : forall d u m, dom d = VN u m -> d = 6 \/ d = 7).
Let O := val_ops dom.
Let L := val_laws dom (ok_doms _ _ _ _ _ _ K).
Let tempty : dim -> val := fun e => match dom e with VI _ => VI [] | VN _ _ => VN false [] end.
Let N := ok_nodup _ _ _ _ _ _ K.
Let NE : std_all <> [].
Proof. discriminate. Qed.
Let Te : forall e, val_valid dom e (tempty e) /\ forall x, ~ val_mem x (tempty e).
Proof. exact (tempty_ok dom). Qed.

(** A dimension that matters is active. *)
Lemma must_act : forall y d z, a_ok dom std_rest y -> hbool y = true -> val_mem z (dom d) ->
  (forall p, a_space dom p -> p d = z -> ~ a_mem p y) -> In d (act_of y).
Proof.
  intros y d z Oy B Hz H. destruct (in_dec Nat.eq_dec d (act_of y)) as [I|I]; auto. exfalso.
  apply (hbool_spec O val_mem (val_valid dom) L false std_all y N Oy) in B as (p & Hp & Mp).
  apply (H (upd p d z)).
  - intros e. unfold upd. destruct (Nat.eqb_spec e d) as [->|]; [exact Hz|apply Hp].
  - unfold upd. rewrite Nat.eqb_refl. reflexivity.
  - apply (indom_upd_indep val_mem y d p z); auto.
Qed.

Section Loop.
Context (c : dim -> val) (Vc : forall d, val_valid dom d (c d)).
(** The invariant of the loop. *)
Definition first_ok (h : hc val) : Prop :=
  hbool h = true \/ In 0 (act_of h) \/ (veqb O (c 0) (dom 0) = true /\ In 1 (act_of h)).
Definition info (x : peer) := PeerInfo (peers_val reg [x]) (if is_block x then [] else named x).
Notation npt names x := (named_pt val_mem 4 1 std_all c (c 2) names (info x)).

Lemma cube_facts : forall x names, pok vis [x] -> is_block x = false ->
  let y := make_props O tempty std_all (ccube_set (ccube_set c 4 (ports_val (resolve_named O names (info x) (c 2)))) 1 (pv (info x))) in
  a_ok dom std_rest y /\ (forall p, a_space dom p -> (a_mem p y <-> npt names x p)) /\
  (hbool y = true -> is_all y = false /\ In 1 (act_of y) /\ (In 0 (act_of y) <-> veqb O (c 0) (dom 0) = false)).
Proof.
  intros x names Px Bx y.
  destruct (named_cube O val_mem (val_valid dom) L ports_val tempty 4 1 2 std_all N) with (c := c) (peer := info x) (names := names) as [C1 C2];
    try (unfold std_all; cbn [In]; tauto); try discriminate; auto.
  { intros l0 Hl. apply ports_val_ok; auto. intros z Hz. apply Hl in Hz. cbn in Hz. rewrite E4 in Hz. cbn in Hz. rewrite mem_cons, mem_nil in Hz. cbn in Hz. lia. }
  { split; [apply (peers_val_valid _ _ _ _ _ _ K); auto; apply (ok_dst _ _ _ _ _ _ K)|]. intros nm n pr E. cbn. rewrite E4. cbn.
    exists (Ivl 1 65535). split; [left; auto|]. cbn. unfold info in E. cbn [pports] in E. destruct (is_block x); [discriminate|]. apply Hn in E. lia. }
  split; [exact C1|]. split; [exact C2|]. intros B.
  assert (I1 : In 1 (act_of y)).
  { apply (must_act y 1 0%Z C1 B).
    - pose proof (ok_dst _ _ _ _ _ _ K) as Y. unfold d_dst in Y. rewrite Y. apply (ok_D_addr _ _ _ _ _ _ K). left. vm_compute. split; discriminate.
    - intros p Hp E M. apply (C2 p Hp) in M as (_ & M & _). rewrite E in M. cbn [pv info] in M. apply (peers_val_mem _ _ _ _ _ _ K) in M; auto.
      + destruct x as [k n|m]; [|discriminate]. destruct M as (m & [X|[]] & _). discriminate.
      + apply (ok_D_addr _ _ _ _ _ _ K). left. vm_compute. split; discriminate. }
  split; [|split; auto].
  - destruct (is_all y) eqn:Ia; auto. unfold is_all in Ia. destruct (act_of y); [destruct I1|discriminate].
  - split.
    + intros I0. destruct (make_props_act O tempty std_all (ccube_set (ccube_set c 4 (ports_val (resolve_named O names (info x) (c 2)))) 1 (pv (info x)))) as [E|E].
      * exfalso. unfold y in B. rewrite E in B. discriminate.
      * apply (E 0 I0).
    + intros V0. assert (V : val_valid dom 0 (vsub O (dom 0) (c 0))) by (apply (L_sub_valid _ _ _ L 0); auto; apply (L_dom _ _ _ L)).
      destruct (vbool O (vsub O (dom 0) (c 0))) eqn:Vb.
      * apply (L_bool _ _ _ L 0) in Vb as (z & Hz); auto. apply (L_sub _ _ _ L 0) in Hz as [Z1 Z2]; auto; [|apply (L_dom _ _ _ L)].
        apply (must_act y 0 z C1 B Z1). intros p Hp E M. apply (C2 p Hp) in M as (M & _). apply Z2. rewrite <- E. apply M; [left; auto| |]; discriminate.
      * exfalso. assert (veqb O (c 0) (dom 0) = true); [|congruence]. apply (L_eqb _ _ _ L 0); auto; [apply (L_dom _ _ _ L)|]. intros z. split.
        -- apply (L_sub_dom _ _ _ L 0); auto.
        -- intros Hz. destruct (vin O z (c 0)) eqn:Vi; [apply (L_in _ _ _ L 0) in Vi; auto|]. exfalso.
           assert (vbool O (vsub O (dom 0) (c 0)) = true); [|congruence]. apply (L_bool _ _ _ L 0); auto. exists z.
           apply (L_sub _ _ _ L 0); auto; [apply (L_dom _ _ _ L)|]. split; auto. intros M. assert (Y : vin O z (c 0) = true) by (apply (L_in _ _ _ L 0); auto). congruence.
Qed.

Lemma or_first : forall h y, a_ok dom std_rest h -> a_ok dom std_rest y -> first_ok h -> first_ok (h_or O std_all h y).
Proof.
  intros h y Hh Hy F. destruct (h_or_spec O val_mem (val_valid dom) L false std_all h y N NE Hh Hy) as [A [_ B]].
  destruct (hbool y) eqn:By.
  - left. apply (hbool_spec O val_mem (val_valid dom) L false std_all _ N A).
    apply (hbool_spec O val_mem (val_valid dom) L false std_all y N Hy) in By as (p & Hp & M). exists p. split; auto. apply B; auto.
  - pose proof (cube_laws dom std_rest reg vis D [Ivl 0 255] K) as W.
    assert (E : h_or O std_all h y = h); [|rewrite E; exact F].
    apply (l_or_empty_r _ _ _ _ _ _ _ _ _ W h y Hh Hy). intros pt Sp Hp. assert (hbool y = true); [|congruence].
    apply (hbool_spec O val_mem (val_valid dom) L false std_all y N Hy); eauto.
Qed.
Lemma sub_first : forall h x names, a_ok dom std_rest h -> pok vis [x] -> is_block x = false -> first_ok h ->
  let y := make_props O tempty std_all (ccube_set (ccube_set c 4 (ports_val (resolve_named O names (info x) (c 2)))) 1 (pv (info x))) in
  a_ok dom std_rest (h_sub O std_all h y) /\ first_ok (h_sub O std_all h y) /\
  forall p, a_space dom p -> (a_mem p (h_sub O std_all h y) <-> a_mem p h /\ ~ npt names x p).
Proof.
  intros h x names Hh Px Bx F y. destruct (cube_facts x names Px Bx) as (A & M & Q). fold y in A, M, Q.
  assert (Sf : sub_safe std_all h y = true).
  { unfold sub_safe. destruct (hbool h) eqn:Bh; [reflexivity|]. destruct (hbool y) eqn:By; [|reflexivity]. cbn [negb orb].
    destruct (Q eq_refl) as (-> & I1 & I0). cbn [orb]. destruct F as [F|[F|[F1 F2]]]; [congruence| |].
    - unfold std_all. cbn [by_order filter]. unfold by_order. cbn [filter]. rewrite (proj2 (mem_dim_In 0 (act_of h ++ act_of y))) by (apply in_or_app; auto).
      apply mem_dim_In. exact F.
    - unfold std_all, by_order. cbn [filter]. destruct (mem_dim 0 (act_of h ++ act_of y)) eqn:M0.
      + apply mem_dim_In in M0. apply mem_dim_In. apply in_app_or in M0 as [M0|M0]; auto. apply I0 in M0. congruence.
      + rewrite (proj2 (mem_dim_In 1 (act_of h ++ act_of y))) by (apply in_or_app; auto). apply mem_dim_In. exact F2. }
  destruct (h_sub_spec O val_mem (val_valid dom) L false std_all h y N NE Hh A Sf) as [R1 [_ R2]].
  split; [exact R1|]. split.
  - unfold first_ok. destruct (hbool (h_sub O std_all h y)) eqn:B; [left; auto|]. right.
    destruct (hbool y) eqn:By.
    + destruct (Q eq_refl) as (Ia & I1 & I0).
      pose proof (sub_empty_act dom std_rest reg vis D [Ivl 0 255] K h y Hh A By Ia Sf B) as Hi.
      destruct (veqb O (c 0) (dom 0)) eqn:V0; [right; split; auto; apply (Hi 1 I1)|left; apply (Hi 0); apply I0; auto].
    + assert (E : h_sub O std_all h y = h).
      { pose proof (cube_laws dom std_rest reg vis D [Ivl 0 255] K) as W. apply (l_sub_empty_r _ _ _ _ _ _ _ _ _ W h y Hh A).
        intros pt Sp Hp. assert (hbool y = true); [|congruence]. apply (hbool_spec O val_mem (val_valid dom) L false std_all y N A); eauto. }
      rewrite E in B |- *. destruct F as [F|[F|F]]; [congruence|auto|auto].
  - intros p Hp. unfold a_mem. rewrite (R2 p Hp). rewrite <- (M p Hp). unfold a_mem. tauto.
Qed.

Lemma excl_loop : forall names excl t h, pok vis t -> a_ok dom std_rest h -> first_ok h ->
  let r := fold_left (named_step O tempty ports_val 4 1 std_all c names excl (c 2)) (map info t) h in
  a_ok dom std_rest r /\ forall p, a_space dom p -> (a_mem p r <->
     (a_mem p h \/ exists x, In x t /\ npt names x p) /\ ~ exists x, In x t /\ npt excl x p).
Proof.
  intros names excl. induction t as [|x t IH]; intros h Pt Hh F; cbv zeta; cbn [map fold_left].
  - split; auto. intros p Hp. split.
    + intros M. split; auto. intros (x & [] & _).
    + intros [[?|(x & [] & _)] _]; auto.
  - assert (Px : pok vis [x]).
    { split; [intros m [->|[]]; apply Pt; left; auto|]. intros kk n [->|[]]. apply Pt. left; auto. }
    assert (Pt' : pok vis t) by (split; [intros m Hm; apply Pt; right; auto|intros kk n Hm; apply Pt; right; auto]).
    assert (Bl : forall q, is_block q = true -> forall nm p, ~ npt nm q p).
    { intros q Eq nm p (_ & _ & n' & pr & _ & E & _). unfold info in E. cbn [pports] in E. rewrite Eq in E. discriminate. }
    assert (Hs : a_ok dom std_rest (named_step O tempty ports_val 4 1 std_all c names excl (c 2) h (info x)) /\
                 first_ok (named_step O tempty ports_val 4 1 std_all c names excl (c 2) h (info x)) /\
         forall p, a_space dom p -> (a_mem p (named_step O tempty ports_val 4 1 std_all c names excl (c 2) h (info x)) <->
           (a_mem p h \/ npt names x p) /\ ~ npt excl x p)).
    { destruct (is_block x) eqn:Bx.
      - assert (E : forall nms, resolve_named O nms (info x) (c 2) = []).
        { unfold resolve_named, info. rewrite Bx. cbn [pports]. induction nms as [|a b IHn]; auto. }
        unfold named_step. rewrite !E. split; auto. split; auto. intros p Hp. pose proof (Bl x Bx names p). pose proof (Bl x Bx excl p). tauto.
      - assert (H1 : let h1 := match resolve_named O names (info x) (c 2) with [] => h | real => h_or O std_all h
              (make_props O tempty std_all (ccube_set (ccube_set c 4 (ports_val real)) 1 (pv (info x)))) end in
            a_ok dom std_rest h1 /\ first_ok h1 /\ forall p, a_space dom p -> (a_mem p h1 <-> a_mem p h \/ npt names x p)).
        { cbv zeta. destruct (cube_facts x names Px Bx) as (A & M & _). destruct (resolve_named O names (info x) (c 2)) as [|a b] eqn:E.
          - split; auto. split; auto. intros p Hp. split; [auto|]. intros [?|X]; auto. exfalso. revert X.
            apply (named_none O val_mem (val_valid dom) L 4 1 2 std_all); auto. unfold std_all; cbn [In]; tauto.
          - destruct (h_or_spec O val_mem (val_valid dom) L false std_all h _ N NE Hh A) as [D1 [_ D2]]. split; [exact D1|]. split; [apply or_first; auto|].
            intros p Hp. unfold a_mem at 1. rewrite (D2 p Hp). rewrite <- (M p Hp). unfold a_mem. tauto. }
        cbv zeta in H1. unfold named_step. set (h1 := match resolve_named O names (info x) (c 2) with [] => h | real => _ end) in *.
        destruct H1 as (H1 & H2 & H3).
        destruct (sub_first h1 x excl H1 Px Bx H2) as (S1 & S2 & S3). destruct (resolve_named O excl (info x) (c 2)) as [|a b] eqn:E.
        + split; auto. split; auto. intros p Hp. rewrite H3 by auto. split; [|tauto]. intros X. split; auto.
          apply (named_none O val_mem (val_valid dom) L 4 1 2 std_all); auto. unfold std_all; cbn [In]; tauto.
        + split; [exact S1|]. split; [exact S2|]. intros p Hp. rewrite S3, H3 by auto. tauto. }
    destruct Hs as (S1 & S2 & S3). destruct (IH _ Pt' S1 S2) as [R1 R2]. split; [exact R1|]. intros p Hp. rewrite R2, S3 by auto. cbn [In]. split.
    + intros [[[[?|?] ?]|(q & ? & Nq)] Nt].
      * split; auto. intros (q & [<-|?] & ?); [auto|]. apply Nt; eauto.
      * split; [eauto|]. intros (q & [<-|?] & ?); [auto|]. apply Nt; eauto.
      * split; [eauto|]. intros (q' & [<-|?] & Eq'); [|apply Nt; eauto].
        (* the same pod *)
        assert (Bq : is_block q = false) by (destruct (is_block q) eqn:Bq; auto; destruct (Bl q Bq _ _ Nq)).
        assert (Bx : is_block x = false) by (destruct (is_block x) eqn:Bx; auto; destruct (Bl x Bx _ _ Eq')).
        destruct q as [k1 n1|]; [|discriminate]. destruct x as [k2 n2|]; [|discriminate].
        assert (Pq : pok vis [Named k1 n1]).
        { split; [intros m [X|[]]; discriminate|]. intros kk n [X|[]]. injection X as <- <-. apply Pt'; auto. }
        assert (Pd : mem (p 1) D) by (pose proof (Hp 1) as X; cbn in X; pose proof (ok_dst _ _ _ _ _ _ K) as Y; unfold d_dst in Y; rewrite Y in X; exact X).
        pose proof (proj1 (proj2 Nq)) as V1. pose proof (proj1 (proj2 Eq')) as V2. cbn [info pv] in V1, V2.
        apply (peers_val_mem _ _ _ _ _ _ K) in V1; auto. apply (peers_val_mem _ _ _ _ _ _ K) in V2; auto.
        destruct (point_of_index reg (p 1)) as [k3 n3|a].
        -- destruct V1 as [V1|[]], V2 as [V2|[]]. rewrite <- V1 in V2. injection V2 as -> ->. apply Nt. eauto.
        -- destruct V1 as (m & [V1|[]] & _). discriminate.
    + intros [X Nt]. split.
      * destruct X as [?|(q & [<-|?] & ?)]; [left; split; auto; intros ?; apply Nt; eauto|left; split; auto; intros ?; apply Nt; eauto|right; eauto].
      * intros (q & ? & ?). apply Nt; eauto.
Qed.
End Loop.

Theorem conns_of_excl_spec : forall k, dict_ok dom vis (strip_excl k) -> (excl_of k <> [] -> k_dst k <> None) ->
  a_ok dom std_rest (conns_of dom reg named k) /\
  forall p, a_space dom p ->
    (a_mem p (conns_of dom reg named k) <->
     dict_rest reg k p /\ opt (fun q => dport_in named (fun pr => val_mem pr (dict_cube dom reg k 2)) (a_dst reg p) q (p 4) /\
        ~ excluded_at named (fun pr => val_mem pr (dict_cube dom reg k 2)) (a_dst reg p) (excluded_named_ports q) (p 4)) (k_dports k)).
Proof.
  intros k H He.
  destruct (k_dports k) as [q|] eqn:Eq.
  2: { destruct (conns_of_spec dom reg vis D K E3 E4 E5 E8 E9 named Hn E6 E7 Ewords k) as [A B].
       - replace k with (strip_excl k); auto. destruct k. cbn in Eq. subst. reflexivity.
       - split; auto. intros p Hp. rewrite B by auto. rewrite Eq. reflexivity. }
  cbn [opt]. destruct (excluded_named_ports q) as [|e0 es] eqn:Ex.
  { destruct (conns_of_spec dom reg vis D K E3 E4 E5 E8 E9 named Hn E6 E7 Ewords k) as [A B].
    - replace k with (strip_excl k); auto. destruct k. cbn in Eq. subst. unfold strip_excl. cbn. destruct q. cbn in Ex. subst. reflexivity.
    - split; auto. intros p Hp. rewrite B by auto. rewrite Eq. cbn [opt]. split; [|tauto]. intros [? ?]. split; auto. split; auto.
      intros (nm & pr & [] & _). }
  assert (Exk : excl_of k = excluded_named_ports q) by (unfold excl_of; rewrite Eq; reflexivity).
  assert (Exn : names_of k = named_ports q) by (unfold names_of; rewrite Eq; reflexivity).
  destruct (k_dst k) as [dst|] eqn:Ed; [|exfalso; apply He; auto; rewrite Exk, Ex; discriminate].
  pose proof (dk_dst _ _ _ H) as Pd. cbn [strip_excl k_dst] in Pd. rewrite Ed in Pd. cbn [opt] in Pd.
  set (c := dict_cube dom reg k). assert (Ec : forall d, c d = dict_cube dom reg (strip_excl k) d).
  { intros d. unfold c, dict_cube, strip_excl. cbn [k_src k_dst k_proto k_sports k_dports k_methods k_hosts k_paths k_type k_code].
    destruct d as [|[|[|[|[|d]]]]]; try reflexivity. rewrite Eq. reflexivity. }
  assert (Vc : forall d, val_valid dom d (c d)) by (intros d; rewrite Ec; eapply dict_cube_valid; eauto).
  assert (Wc : words_ok dom c).
  { intros e u m X. rewrite Ec. eapply dict_words; eauto. }
  destruct (make_props_spec O val_mem (val_valid dom) L std_all tempty c N NE (fun d _ => Vc d) (fun d _ => Te d)) as [A B].
  assert (Rs : forall p, a_space dom p -> ((forall d, In d std_all -> d <> 4 -> val_mem (p d) (c d)) <-> dict_rest reg k p) /\
                          (val_mem (p 4) (c 4) <-> mem (p 4) (port_set q))).
  { intros p Hp. assert (Q := fun A => dict_cube_mem dom reg vis D A (strip_excl k) p H Hp). destruct (Q K) as [M1 M2]. clear Q. split.
    - transitivity (dict_rest reg (strip_excl k) p); [|reflexivity]. rewrite <- M1. split; intros X d; [rewrite <- Ec|rewrite Ec]; auto.
    - rewrite Ec, M2. cbn [strip_excl k_dports]. rewrite Eq. reflexivity. }
  unfold conns_of. change (val_ops dom) with O. fold c.
  rewrite (named_words dom reg vis D K E4 named c _ _ Wc). fold tempty. rewrite Exk, Exn.
  destruct (back_and_forth dom reg vis D K dst Pd) as (l & s' & El & Es & Ps & M).
  unfold make_conn_props. set (h0 := if vbool O (c 4) then make_props O tempty std_all c else hempty Conn std_all).
  assert (E1 : c 1 = VI l) by (unfold c, dict_cube, or_dom, peers_val; rewrite Ed, El; reflexivity).
  assert (Fold : match named_ports q, excluded_named_ports q with
    | [], [] => make_props O tempty std_all c
    | _, _ => fold_left (named_step O tempty ports_val 4 1 std_all c (named_ports q) (excluded_named_ports q) (c 2)) (port_peers reg named (c 1)) h0
    end = fold_left (named_step O tempty ports_val 4 1 std_all c (named_ports q) (excluded_named_ports q) (c 2)) (map info s') h0).
  { rewrite E1. cbn [port_peers]. rewrite Es. rewrite Ex. destruct (named_ports q); reflexivity. }
  cbv zeta. change (val_ops dom) with O. change (if vbool O (c 4) then make_props O tempty std_all c else hempty Conn std_all) with h0. rewrite Fold. clear Fold.
  assert (H0 : a_ok dom std_rest h0 /\ first_ok c h0 /\ forall p, a_space dom p -> (a_mem p h0 <-> dict_rest reg k p /\ mem (p 4) (port_set q))).
  { assert (Em : a_ok dom std_rest (hempty Conn std_all) /\ first_ok c (hempty Conn std_all) /\ forall p, ~ a_mem p (hempty Conn std_all)).
    { split; [apply hempty_obj; [exact NE|discriminate]|]. split; [right; left; left; auto|]. intros p. apply empty_denot; auto. }
    assert (B' : forall p, a_space dom p -> (a_mem p (make_props O tempty std_all c) <-> dict_rest reg k p /\ mem (p 4) (port_set q))).
    { intros p Hp. destruct (Rs p Hp) as [M1 M2]. unfold a_mem. rewrite (B p Hp), <- M1, <- M2. split.
      - intros X. split; [intros d Hd _; auto|]. apply X. unfold std_all. cbn [In]. tauto.
      - intros [X Y] d Hd. destruct (Nat.eq_dec d 4) as [->|]; auto. }
    unfold h0. destruct (vbool O (c 4)) eqn:Bv.
    - split; [exact A|]. split; auto. destruct (props_cases dom reg vis D K c Vc) as [X|X]; fold O in X; fold tempty in X; [rewrite X; apply Em|left; exact X].
    - split; [apply Em|]. split; [apply Em|]. intros p Hp. split; [intro F; destruct (proj2 (proj2 Em) p F)|].
      intros [_ F]. exfalso. assert (vbool O (c 4) = true); [|congruence]. apply (L_bool _ _ _ L 4); auto. exists (p 4). apply (Rs p Hp). exact F. }
  destruct H0 as (H1 & H2 & H3).
  destruct (excl_loop c Vc (named_ports q) (excluded_named_ports q) s' h0 Ps H1 H2) as [G1 G2]. split; [exact G1|]. intros p Hp.
  rewrite G2, H3 by auto. rewrite <- Ex. destruct (Rs p Hp) as [M1 _].
  assert (Pdd : mem (p 1) D) by (pose proof (Hp 1) as X; cbn in X; pose proof (ok_dst _ _ _ _ _ _ K) as Y; unfold d_dst in Y; rewrite Y in X; exact X).
  assert (Nm : forall names, (exists x, In x s' /\ named_pt val_mem 4 1 std_all c (c 2) names (info x) p) <->
                 dict_rest reg k p /\ excluded_at named (fun pr => val_mem pr (c 2)) (a_dst reg p) names (p 4)).
  { intros names. split.
    - intros (x & Hx & F1 & F2 & nm & pr & F3 & F4 & F5).
      assert (Px : pok vis [x]).
      { split; [intros m [->|[]]; apply Ps; auto|]. intros kk n [->|[]]. apply Ps. auto. }
      unfold info in F2, F4. cbn [pv pports] in *. apply (peers_val_mem _ _ _ _ _ _ K) in F2; auto.
      assert (Hd : pt_in (point_of_index reg (p 1)) dst).
      { apply M; auto. destruct (point_of_index reg (p 1)) as [kk n|y].
        - destruct F2 as [->|[]]. exact Hx.
        - destruct F2 as (m & [->|[]] & Hm). exists m. auto. }
      split.
      + apply M1. intros d Hd' N4. destruct (Nat.eq_dec d 1) as [->|N1]; [|apply F1; auto]. rewrite E1.
        pose proof (proj2 (peers_val_mem _ _ _ _ _ _ K dst (p 1) Pd Pdd) Hd) as Y. unfold peers_val in Y. rewrite El in Y. exact Y.
      + exists nm, pr. split; auto. split; auto. destruct x as [kk n|m]; cbn [is_block] in F4; [|discriminate].
        exists kk, n. split; auto. unfold a_dst, d_dst. destruct (point_of_index reg (p 1)) as [kk' n'|y].
        * destruct F2 as [F2|[]]. congruence.
        * destruct F2 as (m & [F2|[]] & _). discriminate.
    - intros (R & nm & pr & F1 & F2 & kk & n & F3 & F4).
      assert (Hd : pt_in (point_of_index reg (p 1)) dst) by (destruct R as (_ & R & _); rewrite Ed in R; exact R).
      apply M in Hd; auto. unfold a_dst, d_dst in F3. rewrite F3 in Hd. cbn [pt_in] in Hd. exists (Named kk n). split; auto.
      assert (Px : pok vis [Named kk n]).
      { split; [intros m [Y|[]]; discriminate|]. intros kk' n' [Y|[]]. injection Y as <- <-. apply Ps; auto. }
      split; [|split].
      + intros d Hd' N4 _. apply (proj2 M1 R); auto.
      + unfold info. cbn [pv]. apply (peers_val_mem _ _ _ _ _ _ K); auto. rewrite F3. left; auto.
      + exists nm, pr. unfold info. cbn [pports is_block]. auto. }
  rewrite (Nm (named_ports q)), (Nm (excluded_named_ports q)). unfold dport_in, excluded_at. fold c. tauto.
Qed.
End Excl.

(** For the dimension table of the tool. *)
Definition std_conns_of_excl_spec reg (R : reg_ok reg) named Hn :=
  conns_of_excl_spec std_dom reg reg std_peers (std_alg reg R) eq_refl eq_refl eq_refl eq_refl eq_refl named Hn eq_refl eq_refl std_words.
