(** * Properties of IP blocks, peer sets and the peer index (C16, C17, C18, C47). *)
From Coq Require Import ZArith List Bool Lia String.
From Verif Require Import IntervalModel IntervalFacts PortProtoModel PeerModel PeerFacts PeerSetFacts.
Import ListNotations.
Local Open Scope string_scope.
Local Open Scope Z_scope.

(** ** C16: IP blocks *)
(** Any way of building an IP block. *)
Inductive ipexp :=
| INone
| IAll (exclude_ipv6 exclude_ipv4 : bool)
| IAdd (b : ipexp) (c : cidr) (exceptions : list cidr)
| IRemove (b : ipexp) (c : cidr)
| IAnd (a b : ipexp) | IOr (a b : ipexp) | ISub (a b : ipexp).

Fixpoint irun (e : ipexp) : option iset :=
  match e with
  | INone => Some []
  | IAll x6 x4 => get_all_ips_block x6 x4
  | IAdd b c exc => bind (irun b) (fun l => add_cidr l c exc)
  | IRemove b c => bind (irun b) (fun l => Some (remove_cidr l c))
  | IAnd a b => bind (irun a) (fun l => bind (irun b) (fun m => Some (ipb_and l m)))
  | IOr a b => bind (irun a) (fun l => bind (irun b) (fun m => ipb_or l m))
  | ISub a b => bind (irun a) (fun l => bind (irun b) (fun m => Some (ipb_sub l m)))
  end.

(** Independent meaning: the addresses the block should have. *)
Fixpoint in_exp (a : addr) (e : ipexp) : Prop :=
  match e with
  | INone => False
  | IAll x6 x4 => if is6 a then x6 = false else x4 = false
  | IAdd b c exc => (in_exp a b \/ in_cidr a c) /\ ~ Exists (in_cidr a) exc
  | IRemove b c => in_exp a b /\ ~ in_cidr a c
  | IAnd x y => in_exp a x /\ in_exp a y
  | IOr x y => in_exp a x \/ in_exp a y
  | ISub x y => in_exp a x /\ ~ in_exp a y
  end.

(** Legal inputs: legal CIDRs, exceptions of the family of their CIDR. *)
Fixpoint iwf (e : ipexp) : Prop :=
  match e with
  | INone => True
  | IAll x6 x4 => x6 && x4 = false
  | IAdd b c exc => iwf b /\ cidr_ok c /\ Forall cidr_ok exc /\ Forall (fun x => c6 x = c6 c) exc
  | IRemove b c => iwf b /\ cidr_ok c
  | IAnd a b | IOr a b | ISub a b => iwf a /\ iwf b
  end.

Definition has (l : iset) (a : addr) : Prop := mem (pos a) l.

Lemma irun_ok : forall e, iwf e -> exists l, irun e = Some l /\ ipset l /\ forall a, addr_ok a -> (has l a <-> in_exp a e).
Proof.
  induction e as [|x6 x4|b IH c exc|b IH c|a IHa b IHb|a IHa b IHb|a IHa b IHb]; cbn [iwf irun in_exp]; intros W.
  - exists []. split; auto. split; [apply ipset_nil|]. intros a _. unfold has. rewrite mem_nil. tauto.
  - unfold get_all_ips_block. rewrite W.
    assert (K4 : cidr_ok (Cidr false 0 0)) by (split; cbn; lia). assert (K6 : cidr_ok (Cidr true 0 0)) by (split; cbn; lia).
    assert (A4 : forall a, addr_ok a -> (in_cidr a (Cidr false 0 0) <-> is6 a = false)).
    { intros a Ha. unfold in_cidr. cbn [c6 cnum cprefix]. rewrite Z.div_0_l by (cbn; lia). split; [tauto|]. intros E. split; auto.
      unfold addr_ok in Ha. rewrite E in Ha. apply Z.div_small. exact Ha. }
    assert (A6 : forall a, addr_ok a -> (in_cidr a (Cidr true 0 0) <-> is6 a = true)).
    { intros a Ha. unfold in_cidr. cbn [c6 cnum cprefix]. rewrite Z.div_0_l by (cbn; lia). split; [tauto|]. intros E. split; auto.
      unfold addr_ok in Ha. rewrite E in Ha. apply Z.div_small. exact Ha. }
    assert (H4 : exists l4, (if x4 then Some [] else add_cidr [] (Cidr false 0 0) []) = Some l4 /\ ipset l4 /\
      forall a, addr_ok a -> (mem (pos a) l4 <-> x4 = false /\ is6 a = false)).
    { destruct x4.
      - exists []. split; auto. split; [apply ipset_nil|]. intros a _. rewrite mem_nil. intuition discriminate.
      - destruct (proj1 (add_cidr_ok [] [] _ ipset_nil K4 (Forall_nil _)) (Forall_nil _)) as (r & E & H & M).
        exists r. split; auto. split; auto. intros a Ha. rewrite M, mem_nil, A4, Exists_nil by auto. tauto. }
    destruct H4 as (l4 & E4 & I4 & M4). rewrite E4. cbn [bind]. destruct x6.
    + exists l4. split; auto. split; auto. intros a Ha. unfold has. rewrite M4 by auto. destruct (is6 a); intuition discriminate.
    + destruct (proj1 (add_cidr_ok [] l4 _ I4 K6 (Forall_nil _)) (Forall_nil _)) as (r & E & H & M).
      exists r. split; auto. split; auto. intros a Ha. unfold has. rewrite M, M4, A6, Exists_nil by auto. destruct (is6 a); intuition discriminate.
  - destruct W as (W1 & W2 & W3 & W4). destruct (IH W1) as (l & E & I & M). rewrite E. cbn [bind].
    destruct (proj1 (add_cidr_ok exc l c I W2 W3) W4) as (r & E' & I' & M'). exists r. split; auto. split; auto.
    intros a Ha. unfold has in *. rewrite M', M; tauto.
  - destruct W as (W1 & W2). destruct (IH W1) as (l & E & I & M). rewrite E. cbn [bind]. unfold remove_cidr.
    destruct (ipb_add_hole_ok l _ I (cidr_fam c W2)) as [I' M']. eexists. split; [reflexivity|]. split; auto.
    intros a Ha. unfold has in *. rewrite M', M, (cidr_mem c a); tauto.
  - destruct W as (W1 & W2). destruct (IHa W1) as (l & E & I & M), (IHb W2) as (m & E2 & I2 & M2). rewrite E, E2. cbn [bind].
    destruct (ipb_and_ok l m I I2) as [I' M']. eexists. split; [reflexivity|]. split; auto. intros x Hx. unfold has in *. rewrite M', M, M2; tauto.
  - destruct W as (W1 & W2). destruct (IHa W1) as (l & E & I & M), (IHb W2) as (m & E2 & I2 & M2). rewrite E, E2. cbn [bind].
    destruct (ipb_or_ok m l I I2) as (r & E' & I' & M'). exists r. split; auto. split; auto. intros x Hx. unfold has in *. rewrite M', M, M2; tauto.
  - destruct W as (W1 & W2). destruct (IHa W1) as (l & E & I & M), (IHb W2) as (m & E2 & I2 & M2). rewrite E, E2. cbn [bind].
    destruct (ipb_sub_ok m l I I2) as [I' M']. eexists. split; [reflexivity|]. split; auto. intros x Hx. unfold has in *. rewrite M', M, M2; tauto.
Qed.

(** Every construction succeeds and yields exactly the addresses it should; every range of the
    result consists of addresses of one family only. *)
Theorem C16_ip_block_exact : forall e, iwf e ->
  exists l, irun e = Some l
    /\ (forall a, addr_ok a -> (has l a <-> in_exp a e))
    /\ (forall i, In i l -> exists six, forall y, lo i <= y <= hi i -> exists n, addr_ok (Addr six n) /\ pos (Addr six n) = y).
Proof.
  intros e W. destruct (irun_ok e W) as (l & E & I & M). exists l. split; auto. split; auto.
  intros i Hi. destruct (ipset_fam l i I Hi) as [F|F]; [exists false|exists true]; intros y Hy;
    [exists y|exists (y - v6min)]; unfold addr_ok, pos; cbn [is6 num width]; rewrite ?pow32, ?pow128; lia.
Qed.

(** Equality of blocks (list equality) is equality of address sets. *)
Theorem C16_equal_iff_same_addresses : forall e f l m, iwf e -> iwf f -> irun e = Some l -> irun f = Some m ->
  (iset_eqb l m = true <-> forall a, addr_ok a -> (in_exp a e <-> in_exp a f)).
Proof.
  intros e f l m We Wf El Em. destruct (irun_ok e We) as (l' & E & I & M), (irun_ok f Wf) as (m' & E2 & I2 & M2).
  rewrite El in E. injection E as <-. rewrite Em in E2. injection E2 as <-. rewrite iset_eqb_eq. split.
  - intros -> a Ha. rewrite <- M, <- M2; tauto.
  - intros H. apply canonical_ext; [apply I|apply I2|]. intros y. split; intros Hy.
    + destruct (pos_surj y (proj2 I y Hy)) as (a & Ha & <-). apply M2; auto. apply H; auto. apply M; auto.
    + destruct (pos_surj y (proj2 I2 y Hy)) as (a & Ha & <-). apply M; auto. apply H; auto. apply M2; auto.
Qed.

Lemma split_nth : forall l j, nth_error (ipb_split l) j = option_map (fun i => [i]) (nth_error l j).
Proof. induction l as [|i l IH]; intros [|j]; cbn; auto. Qed.

Theorem C16_split_count_family : forall e l, iwf e -> irun e = Some l ->
  (* split: single ranges, pairwise disjoint, covering the block *)
  (forall b, In b (ipb_split l) -> exists i, b = [i] /\ lo i <= hi i)
  /\ (forall j k b c a, nth_error (ipb_split l) j = Some b -> nth_error (ipb_split l) k = Some c -> has b a -> has c a -> j = k)
  /\ (forall a, has l a <-> exists b, In b (ipb_split l) /\ has b a)
  (* ip_count *)
  /\ (exists addrs, NoDup addrs /\ (forall a, In a addrs <-> addr_ok a /\ in_exp a e) /\ ip_count l = Z.of_nat (List.length addrs))
  (* is_ipv4_block *)
  /\ (is_ipv4_block l = true <-> forall a, addr_ok a -> in_exp a e -> is6 a = false).
Proof.
  intros e l W E. destruct (irun_ok e W) as (l' & E' & I & M). rewrite E in E'. injection E' as <-.
  split; [|split; [|split; [|split]]].
  - intros b Hb. unfold ipb_split in Hb. apply in_map_iff in Hb as (i & <- & Hi). exists i. split; auto.
    eapply canonical_in; [apply I|auto].
  - intros j k b c a Hb Hc Ha1 Ha2. rewrite split_nth in Hb, Hc.
    destruct (nth_error l j) as [x|] eqn:Ex; [|discriminate]. destruct (nth_error l k) as [z|] eqn:Ez; [|discriminate].
    injection Hb as <-. injection Hc as <-.
    unfold has in *. apply mem_single in Ha1. apply mem_single in Ha2. eapply canonical_nth_disjoint; [apply I|exact Ex|exact Ez|exact Ha1|exact Ha2].
  - intros a. destruct (split_ok l I) as (_ & _ & S). unfold has. rewrite <- (S (pos a)). unfold inU. tauto.
  - destruct (ip_count_ok l (proj1 I)) as (ys & N & Y & L).
    set (un := fun y => if y <=? v4max then Addr false y else Addr true (y - v6min)).
    assert (Un : forall y, vpos y -> addr_ok (un y) /\ pos (un y) = y).
    { intros y V. unfold un, vpos, addr_ok, pos in *. zc. destruct (Z.leb_spec y v4max); cbn [is6 num width]; rewrite ?pow32, ?pow128; lia. }
    exists (map un ys). split; [|split].
    + clear L. assert (V : forall y, In y ys -> vpos y) by (intros y Hy; apply I, Y; auto). clear Y. induction N as [|y ys N1 N2 IH]; cbn [map]; constructor.
      * rewrite in_map_iff. intros (z & Ez & Hz). apply N1.
        assert (Hy' : pos (un y) = y) by (apply Un, V; left; auto). assert (Hz' : pos (un z) = z) by (apply Un, V; right; auto).
        rewrite <- Hy', <- Ez, Hz'. auto.
      * apply IH. intros z Hz. apply V. right; auto.
    + intros a. rewrite in_map_iff. split.
      * intros (y & <- & Hy). apply Y in Hy. assert (V := proj2 I y Hy). destruct (Un y V) as [U1 U2]. split; auto. apply M; auto. unfold has. rewrite U2. auto.
      * intros [Ha H]. apply M in H; auto. exists (pos a). split; [|apply Y; auto]. assert (V := pos_vpos a Ha). destruct (Un (pos a) V). apply pos_inj; auto.
    + rewrite map_length. auto.
  - rewrite is_ipv4_ok by auto. split.
    + intros H a Ha Hin. apply M in Hin; auto. apply H in Hin. unfold pos in Hin. destruct (is6 a) eqn:E6; auto. unfold addr_ok in Ha. rewrite E6 in Ha.
      cbn [width] in Ha. zc. lia.
    + intros H y Hy. destruct (pos_surj y (proj2 I y Hy)) as (a & Ha & <-). assert (H6 : is6 a = false) by (apply H; auto; apply M; auto).
      unfold pos, addr_ok in *. rewrite H6 in *. cbn [width] in Ha. rewrite pow32 in Ha. lia.
Qed.

(** An exception of the other address family is rejected. *)
Theorem C16_mixed_exception_rejected : forall l c exc, ipset l -> cidr_ok c -> Forall cidr_ok exc ->
  Exists (fun x => c6 x <> c6 c) exc -> add_cidr l c exc = None.
Proof. intros l c exc I W1 W2 W3. apply add_cidr_ok; auto. Qed.

(** Finding: the code means to reject an exception outside the CIDR (comment at Peer.py:386-387), but
    subnet_of returns False instead of raising: 10.0.0.0/24 except 10.0.1.0/24 is accepted. *)
Theorem C16_outside_exception_rejected_refuted :
  ~ (forall c exc, cidr_ok c -> Forall cidr_ok exc -> Exists (fun x => exists a, addr_ok a /\ in_cidr a x /\ ~ in_cidr a c) exc ->
       add_cidr [] c exc = None).
Proof.
  intros H. specialize (H (Cidr false 167772160 24) [Cidr false 167772416 24]).
  assert (X : add_cidr [] (Cidr false 167772160 24) [Cidr false 167772416 24] = None); [|vm_compute in X; discriminate].
  apply H.
  - split; cbn; lia.
  - constructor; [split; cbn; lia|constructor].
  - constructor. exists (Addr false 167772416). repeat split; try (cbn; lia). intros [_ K]. vm_compute in K. discriminate.
Qed.

(** 10.0.0.0/8 except 10.1.0.0/16, plus ::/0, host bits set in the CIDR. *)
Definition ex_ip := IAdd (IAdd INone (Cidr false 167772165 8) [Cidr false 167837696 16]) (Cidr true 0 0) [].
Example ex_ip_wf : iwf ex_ip.
Proof. repeat (split || constructor); cbn; lia. Qed.
Example ex_ip_run : irun ex_ip = Some [Ivl 167772160 167837695; Ivl 167903232 184549375; Ivl v6min v6max].
Proof. reflexivity. Qed.
(** The highest IPv4 and the lowest IPv6 address stay apart. *)
Example ex_ip_apart : irun (IAll false false) = Some [Ivl 0 v4max; Ivl v6min v6max].
Proof. reflexivity. Qed.
Print Assumptions C16_ip_block_exact.
Print Assumptions C16_equal_iff_same_addresses.
Print Assumptions C16_split_count_family.
Print Assumptions C16_mixed_exception_rejected.
Print Assumptions C16_outside_exception_rejected_refuted.

(** ** C17: the partition of a collection of blocks *)
(** Adding any blocks one after the other, from the empty list. *)
Definition partition_of (inputs : list iset) : list iset :=
  fold_left (fun bs i => add_interval_to_list i bs) inputs [].

Theorem C17_partition : forall es inputs, (forall e, In e es -> iwf e) -> map irun es = map Some inputs ->
  let R := partition_of inputs in
  (* every block is non-empty *)
  (forall c, In c R -> exists a, addr_ok a /\ has c a)
  (* different blocks have no common address *)
  /\ (forall j k b c a, nth_error R j = Some b -> nth_error R k = Some c -> has b a -> has c a -> j = k)
  (* together they have exactly the addresses of the inputs *)
  /\ (forall a, addr_ok a -> (exists c, In c R /\ has c a) <-> (exists e, In e es /\ in_exp a e))
  (* no input separates two addresses of one block *)
  /\ (forall c e a b, In c R -> In e es -> addr_ok a -> addr_ok b -> has c a -> has c b -> (in_exp a e <-> in_exp b e)).
Proof.
  intros es inputs W E.
  assert (G : forall inputs bs, (forall i, In i inputs -> ipset i) -> (forall b, In b bs -> blk b) -> pdisj bs ->
    let R := fold_left (fun bs i => add_interval_to_list i bs) inputs bs in
    (forall c, In c R -> blk c /\ (forall i, In i inputs -> uncut c i) /\
       ((exists b, In b bs /\ forall y, mem y c -> mem y b) \/ forall b, In b bs -> disj c b))
    /\ pdisj R /\ forall y, inU y R <-> inU y bs \/ exists i, In i inputs /\ mem y i).
  { clear. induction inputs as [|i inputs IH]; intros bs Hi Hb Hd; cbv zeta; cbn [fold_left].
    - split; [|split; auto]. { intros c Hc. split; auto. split; [intros i []|left; eauto]. }
      intros y. split; [auto|]. intros [?|(i & [] & _)]; auto.
    - destruct (add_to_list_ok i bs (Hi i (or_introl eq_refl)) Hb Hd) as (A1 & A2 & A3).
      destruct (IH (add_interval_to_list i bs)) as (B1 & B2 & B3); auto.
      { intros; apply Hi; right; auto. } { intros; apply A1; auto. }
      assert (Dm : forall c b, In c (add_interval_to_list i bs) -> In b bs -> blk c -> uncut c i -> True) by auto.
      split; [|split; auto].
      + intros c Hc. destruct (B1 c Hc) as (C1 & C2 & C3). split; auto. split.
        * intros j [<-|Hj]; auto. destruct C3 as [(b & Hb1 & Hb2)|C3].
          -- destruct (A1 b Hb1) as (_ & U & _). destruct U as [U|U]; [left; auto|right]. intros y Y1 Y2. apply (U y); auto.
          -- right. intros y Y1 Y2. assert (Hu : inU y (add_interval_to_list i bs)) by (apply A3; auto). destruct Hu as (b & Hb1 & Hb2). apply (C3 b Hb1 y); auto.
        * destruct C3 as [(b & Hb1 & Hb2)|C3].
          -- destruct (A1 b Hb1) as (_ & _ & [(b0 & H1 & H2)|H]); [left; exists b0; auto|right].
             intros b0 H0 y Y1 Y2. apply (H b0 H0 y); auto.
          -- right. intros b0 H0 y Y1 Y2. assert (Hu : inU y (add_interval_to_list i bs)) by (apply A3; left; exists b0; auto).
             destruct Hu as (b & Hb1 & Hb2). apply (C3 b Hb1 y); auto.
      + intros y. rewrite B3, A3. split.
        * intros [[?|?]|(j & ? & ?)]; [auto|right; exists i; simpl; auto|right; exists j; simpl; auto].
        * intros [?|(j & [<-|?] & ?)]; [auto|auto|right; eauto]. }
  assert (In1 : forall i, In i inputs -> exists e, In e es /\ irun e = Some i).
  { intros i Hi. assert (H : In (Some i) (map irun es)) by (rewrite E; apply in_map; auto). apply in_map_iff in H as (e & H1 & H2). eauto. }
  assert (In2 : forall e, In e es -> exists i, In i inputs /\ irun e = Some i).
  { intros e He. assert (H : In (irun e) (map Some inputs)) by (rewrite <- E; apply in_map; auto). apply in_map_iff in H as (i & H1 & H2). eauto. }
  assert (Hi : forall i, In i inputs -> ipset i).
  { intros i H. destruct (In1 i H) as (e & He & Ee). destruct (irun_ok e (W e He)) as (l & El & I & _). congruence. }
  assert (Hm : forall e i a, In e es -> irun e = Some i -> addr_ok a -> (has i a <-> in_exp a e)).
  { intros e i a He Ee Ha. destruct (irun_ok e (W e He)) as (l & El & I & M). rewrite Ee in El. injection El as <-. apply M; auto. }
  destruct (G inputs []) as (G1 & G2 & G3); auto. { intros b []. } { exact I. }
  fold (partition_of inputs) in *. cbv zeta. set (R := partition_of inputs) in *.
  split; [|split; [|split]].
  - intros c Hc. destruct (G1 c Hc) as ([I [y Hy]] & _). destruct (pos_surj y (proj2 I y Hy)) as (a & Ha & <-). exists a; auto.
  - clear - G2. intros j k b c a Hb Hc H1 H2. revert j k Hb Hc. induction R as [|r R IH]; intros j k Hb Hc; [destruct j; discriminate|].
    cbn [pdisj] in G2. destruct G2 as [G2 G3]. destruct j as [|j], k as [|k]; cbn [nth_error] in *; auto.
    + injection Hb as <-. exfalso. exact (G2 c (nth_error_In _ _ Hc) (pos a) H1 H2).
    + injection Hc as <-. exfalso. exact (G2 b (nth_error_In _ _ Hb) (pos a) H2 H1).
  - intros a Ha. unfold has. specialize (G3 (pos a)). unfold inU at 1 in G3. rewrite G3, inU_nil. split.
    + intros [[]|(i & H1 & H2)]. destruct (In1 i H1) as (e & He & Ee). exists e. split; auto. apply (Hm e i a); auto.
    + intros (e & He & H). destruct (In2 e He) as (i & H1 & Ee). right. exists i. split; auto. apply (Hm e i a); auto.
  - intros c e a b Hc He Ha Hb H1 H2. destruct (In2 e He) as (i & Hi' & Ee). rewrite <- (Hm e i a), <- (Hm e i b) by auto.
    destruct (G1 c Hc) as (_ & U & _). destruct (U i Hi') as [K|K]; unfold has in *; split; intros X; auto; exfalso; [exact (K _ H1 X)|exact (K _ H2 X)].
Qed.

(** 0-10, 5-20, 30-40 together with 8-35 (adjacent and overlapping blocks). *)
Definition ex_parts := [[Ivl 0 10]; [Ivl 5 20]; [Ivl 30 40]; [Ivl 8 35]].
Example ex_parts_run : partition_of ex_parts =
  [[Ivl 0 4]; [Ivl 11 20]; [Ivl 5 7]; [Ivl 36 40]; [Ivl 21 29]; [Ivl 8 10]; [Ivl 30 35]].
Proof. vm_compute. reflexivity. Qed.
Print Assumptions C17_partition.

(** ** C47: peer sets *)
(** Well-formed sets: every IP block in it is the result of some construction. *)
Definition set_ok (s : peerset) : Prop := forall l, In (Block l) s -> exists e, iwf e /\ irun e = Some l.
(** Elements: named peers and addresses. *)
Inductive elem := EPeer (kind : nat) (name : string) | EAddr (a : addr).
Definition el_in (x : elem) (s : peerset) : Prop :=
  match x with EPeer k n => In (Named k n) s | EAddr a => exists l, In (Block l) s /\ has l a end.
Definition el_ok (x : elem) : Prop := match x with EAddr a => addr_ok a | _ => True end.

Lemma set_ok_ps : forall s, set_ok s -> ps_ok s.
Proof. intros s H l Hl. destruct (H l Hl) as (e & W & E). destruct (irun_ok e W) as (l' & E' & I & _). congruence. Qed.
Definition topt (x : elem) : point := match x with EPeer k n => PN k n | EAddr a => PA (pos a) end.
Lemma el_in_pt : forall x s, el_in x s <-> pt_in (topt x) s.
Proof. intros [k n|a] s; cbn; tauto. Qed.

Theorem C47_peer_set_operations_exact : forall s t, set_ok s -> set_ok t ->
  (forall x, el_in x (ps_union s t) <-> el_in x s \/ el_in x t)
  /\ (exists r, ps_inter s t = Some r /\ forall x, el_in x r <-> el_in x s /\ el_in x t)
  /\ (exists r, ps_diff s t = Some r /\ forall x, el_in x r <-> el_in x s /\ ~ el_in x t)
  /\ (exists b, ps_equal s t = Some b /\ (b = true <-> forall x, el_ok x -> (el_in x s <-> el_in x t)))
  /\ (exists r, ps_canonical s = Some r /\ (forall x, el_in x r <-> el_in x s) /\
        forall l m, In (Block l) r -> In (Block m) r -> l = m)
  /\ (forall x, el_in x (ps_split s) <-> el_in x s) /\ (forall l, In (Block l) (ps_split s) -> exists i, l = [i])
  /\ (forall e mask, iwf e -> irun e = Some mask -> exists r, ps_filter_mask s mask = Some r /\
        forall x, el_ok x -> (el_in x r <-> el_in x s /\ match x with EAddr a => in_exp a e | _ => True end)).
Proof.
  intros s t Hs Ht. apply set_ok_ps in Hs, Ht. split; [|split; [|split; [|split; [|split; [|split; [|split]]]]]].
  - intros x. rewrite !el_in_pt. apply pt_in_union.
  - destruct (ps_inter_ok s t Hs Ht) as (r & E & _ & M). exists r. split; auto. intros x. rewrite !el_in_pt. auto.
  - destruct (ps_diff_ok s t Hs Ht) as (r & E & _ & M). exists r. split; auto. intros x. rewrite !el_in_pt. auto.
  - destruct (ps_equal_ok s t Hs Ht) as (b & E & M). exists b. split; auto. rewrite M. split.
    + intros H x _. rewrite !el_in_pt. auto.
    + intros H [k n|y]; [apply (H (EPeer k n) I)|].
      assert (X : forall s, ps_ok s -> pt_in (PA y) s -> vpos y) by (intros u Hu (l & Hl & Hy); apply (Hu l Hl); auto).
      split; intros Hy.
      * destruct (pos_surj y (X s Hs Hy)) as (a & Ha & <-). apply (H (EAddr a) Ha); auto.
      * destruct (pos_surj y (X t Ht Hy)) as (a & Ha & <-). apply (H (EAddr a) Ha); auto.
  - destruct (ps_canonical_ok s Hs) as (r & E & _ & M & U). exists r. split; auto. split; auto. intros x. rewrite !el_in_pt. auto.
  - intros x. rewrite !el_in_pt. apply ps_split_ok; auto.
  - apply ps_split_ok; auto.
  - intros e mask W E. destruct (irun_ok e W) as (l & E' & I & M). rewrite E in E'. injection E' as <-.
    destruct (ps_filter_mask_ok s mask Hs I) as (r & Er & _ & Mr). exists r. split; auto. intros x Hx. rewrite !el_in_pt, Mr.
    destruct x as [k n|a]; cbn [topt]; [tauto|]. rewrite <- (M a Hx). unfold has. tauto.
Qed.

(** __contains__: a named peer is looked up; a block must lie inside one block of the set. *)
Theorem C47_contains_exact : forall s item, set_ok s -> set_ok [item] ->
  exists b, ps_contains item s = Some b /\
    (b = true <-> match item with
                  | Named k n => In (Named k n) s
                  | Block l => exists m, In (Block m) s /\ forall a, addr_ok a -> has l a -> has m a
                  end).
Proof.
  intros s item Hs Hi. apply set_ok_ps in Hs, Hi. destruct (ps_contains_ok item s Hs Hi) as (b & E & M). exists b. split; auto. rewrite M.
  destruct item as [k n|l]; [tauto|]. split; intros (m & Hm & H); exists m; (split; [auto|]).
  - intros a _ Ha. apply H; auto.
  - intros y Hy. destruct (pos_surj y) as (a & Ha & <-); [apply (Hi l); [left; auto|auto]|]. apply (H a); auto.
Qed.

(** Finding: so a block covered by the set, but by two of its members, is reported as not contained
    (the class comment, Peer.py:525-526, restricts __contains__ to pre-split blocks). *)
Theorem C47_contains_is_coverage_refuted :
  ~ (forall s l, set_ok s -> set_ok [Block l] -> l <> [] ->
       (ps_contains (Block l) s = Some true <-> forall a, addr_ok a -> has l a -> el_in (EAddr a) s)).
Proof.
  intros H.
  assert (W1 : iwf (IAdd INone (Cidr false 0 1) [])) by (repeat (split || constructor); cbn; lia).
  assert (W2 : iwf (IAdd INone (Cidr false (2 ^ 31) 1) [])) by (repeat (split || constructor); cbn; lia).
  set (s := [Block [Ivl 0 (2 ^ 31 - 1)]; Block [Ivl (2 ^ 31) v4max]]).
  assert (X : ps_contains (Block [Ivl 0 v4max]) s = Some true).
  { apply H.
    - intros l [E|[E|[]]]; injection E as <-; [exists (IAdd INone (Cidr false 0 1) [])|exists (IAdd INone (Cidr false (2 ^ 31) 1) [])]; split; auto.
    - intros l [E|[]]; injection E as <-. exists (IAll true false). split; reflexivity.
    - discriminate.
    - intros a Ha Hl. unfold has in Hl. apply mem_single in Hl. cbn [lo hi] in Hl. cbn [el_in]. unfold s, has.
      destruct (Z.leb_spec (pos a) (2 ^ 31 - 1)).
      + exists [Ivl 0 (2 ^ 31 - 1)]. split; [left; auto|]. apply mem_single. cbn [lo hi]. lia.
      + exists [Ivl (2 ^ 31) v4max]. split; [right; left; auto|]. apply mem_single. cbn [lo hi]. lia. }
  vm_compute in X. discriminate.
Qed.

Definition ex_set := [Named 0 "default/a"; Block [Ivl 0 100]; Named 2 "*.example.com"; Block [Ivl 50 200]].
Example ex_set_inter : ps_inter ex_set [Named 2 "*.example.com"; Block [Ivl 90 v4max]; Named 0 "default/b"]
  = Some [Named 2 "*.example.com"; Block [Ivl 90 200]].
Proof. reflexivity. Qed.
Print Assumptions C47_peer_set_operations_exact.
Print Assumptions C47_contains_exact.
Print Assumptions C47_contains_is_coverage_refuted.

(** ** C18: peer sets as index intervals *)
Local Opaque min_pod_index max_pod_index min_ipv6_index max_ipv6_index max_ipv4_index v4max v6min v6max.
(** The translation to indices and back gives the same peers and addresses, for every registration
    history [hist] and every set over the registered peers. *)
Theorem C18_round_trip : forall hist reg s, register [] hist = Some reg -> set_ok s ->
  (forall k n, In (Named k n) s -> In (Named k n) hist) ->
  exists l s', peer_interval_of reg s = Some l /\ peer_set_by_indices reg l = Some s' /\
    forall x, el_ok x -> (el_in x s' <-> el_in x s).
Proof.
  intros hist reg s R Hs Hr. apply set_ok_ps in Hs.
  assert (R0 : reg_ok []) by (repeat split; [constructor|intros p []|vm_compute; discriminate]).
  destruct (register_ok _ _ _ R0 R) as (Rk & Rin & _).
  destruct (peer_interval_ok reg s Rk Hs) as (l & El & C & M). { intros k n H. apply Rin. right. split; auto. }
  assert (PB : forall k n z, point_index reg (PN k n) = Some z -> min_pod_index <= z < min_pod_index + Z.of_nat (List.length reg)).
  { intros k n z H. cbn [point_index] in H. destruct (peer_index reg (Named k n)) as [j|] eqn:Ej; [|discriminate]. cbn in H. injection H as <-.
    apply peer_index_spec in Ej as [J1 J2]; [|apply Rk]. assert (Hn : nth_error reg (Z.to_nat j) <> None) by congruence.
    apply nth_error_Some in Hn. lia. }
  assert (Zs : forall z, mem z l -> zone_ok reg (Ivl z z)).
  { intros z Hz. apply M in Hz as (x & Hx & Ex). destruct icons as (K1 & K2 & K3 & K4 & K5). unfold zone_ok. cbn [lo hi]. zc. destruct Rk as (_ & _ & L).
    unfold max_num_of_pods in L. destruct x as [k n|y].
    - apply PB in Ex. lia.
    - destruct Hx as (m & Hm & Hy). apply (Hs m Hm) in Hy. cbn in Ex. injection Ex as <-. unfold addr_index, vpos in *. destruct (Z.leb_spec y v4max); lia. }
  destruct (by_indices_ok reg l Rk C) as (s' & Es' & _ & _ & M').
  { intros i Hi. pose proof (canonical_in _ _ C Hi) as Li.
    assert (A : zone_ok reg (Ivl (lo i) (lo i))) by (apply Zs; exists i; split; [auto|lia]).
    assert (B : zone_ok reg (Ivl (hi i) (hi i))) by (apply Zs; exists i; split; [auto|lia]).
    destruct icons as (K1 & K2 & K3 & K4 & K5). zc.
    assert (M4 : ~ (lo i <= v4max + 1 <= hi i)).
    { intros Hm. assert (Zm : zone_ok reg (Ivl (v4max + 1) (v4max + 1))) by (apply Zs; exists i; auto). unfold zone_ok in Zm. cbn [lo hi] in Zm. lia. }
    assert (M6 : ~ (lo i <= max_ipv6_index + 1 <= hi i)).
    { intros Hm. assert (Zm : zone_ok reg (Ivl (max_ipv6_index + 1) (max_ipv6_index + 1))) by (apply Zs; exists i; auto). unfold zone_ok in Zm. cbn [lo hi] in Zm. lia. }
    unfold zone_ok in *. cbn [lo hi] in *. lia. }
  exists l, s'. split; auto. split; auto.
  assert (Inj : forall x y z, (match x with PA v => vpos v | _ => True end) -> (match y with PA v => vpos v | _ => True end) ->
    point_index reg x = Some z -> point_index reg y = Some z -> x = y).
  { intros x y z Vx Vy Ex Ey. destruct icons as (K1 & K2 & K3 & K4 & K5). zc. destruct Rk as (N & _ & L).
    destruct x as [k n|v], y as [k' n'|v'].
    - cbn [point_index] in Ex, Ey. destruct (peer_index reg (Named k n)) as [j|] eqn:Ej; [|discriminate]. destruct (peer_index reg (Named k' n')) as [j'|] eqn:Ej'; [|discriminate].
      cbn in Ex, Ey. injection Ex as <-. injection Ey as Ey. apply peer_index_spec in Ej as [J1 J2]; auto. apply peer_index_spec in Ej' as [J1' J2']; auto.
      assert (j' = j) by lia. subst j'. rewrite J2 in J2'. injection J2' as -> ->. auto.
    - apply PB in Ex. cbn in Ey. injection Ey as <-. unfold addr_index, vpos in *. destruct (Z.leb_spec v' v4max); lia.
    - apply PB in Ey. cbn in Ex. injection Ex as <-. unfold addr_index, vpos in *. destruct (Z.leb_spec v v4max); lia.
    - f_equal. cbn in Ex, Ey. injection Ex as <-. injection Ey as Ey. unfold addr_index, vpos in *. destruct (Z.leb_spec v v4max), (Z.leb_spec v' v4max); lia. }
  intros x Hx. rewrite !el_in_pt. assert (Vx : match topt x with PA v => vpos v | _ => True end) by (destruct x; cbn; auto using pos_vpos).
  rewrite M' by auto. split.
  - intros (z & Hz & E). apply M in Hz as (w & Hw & Ew). assert (Vw : match w with PA v => vpos v | _ => True end).
    { destruct w as [|v]; auto. destruct Hw as (m & Hm & Hv). apply (Hs m Hm); auto. }
    rewrite (Inj (topt x) w z); auto.
  - intros H. destruct (topt x) as [k n|v] eqn:Ex.
    + cbn [pt_in] in H. destruct (peer_index_In reg (Named k n)) as [j Ej]; [apply Rin; right; split; auto|].
      exists (min_pod_index + j). assert (E : point_index reg (PN k n) = Some (min_pod_index + j)) by (cbn [point_index]; rewrite Ej; auto).
      split; auto. apply M. exists (PN k n). split; auto.
    + exists (addr_index v). split; auto. apply M. exists (PA v). auto.
Qed.

(** Two sets over the registered peers have the same index intervals iff they have the same elements. *)
Theorem C18_indices_determine_the_set : forall hist reg s t l m, register [] hist = Some reg -> set_ok s -> set_ok t ->
  (forall k n, In (Named k n) (s ++ t)%list -> In (Named k n) hist) ->
  peer_interval_of reg s = Some l -> peer_interval_of reg t = Some m ->
  (l = m <-> forall x, el_ok x -> (el_in x s <-> el_in x t)).
Proof.
  intros hist reg s t l m R Hs Ht Hr El Em.
  assert (Hrs : forall k n, In (Named k n) s -> In (Named k n) hist) by (intros; apply Hr, in_app_iff; auto).
  assert (Hrt : forall k n, In (Named k n) t -> In (Named k n) hist) by (intros; apply Hr, in_app_iff; auto).
  split.
  - intros <- x Hx. destruct (C18_round_trip hist reg s R Hs Hrs) as (l1 & s1 & E1 & E1' & M1), (C18_round_trip hist reg t R Ht Hrt) as (l2 & s2 & E2 & E2' & M2).
    rewrite <- M1, <- M2 by auto. rewrite El in E1. rewrite Em in E2. injection E1 as <-. injection E2 as <-. rewrite E1' in E2'. injection E2' as <-. tauto.
  - intros H. apply set_ok_ps in Hs, Ht.
    assert (R0 : reg_ok []) by (repeat split; [constructor|intros p []|vm_compute; discriminate]).
    destruct (register_ok _ _ _ R0 R) as (Rk & Rin & _).
    destruct (peer_interval_ok reg s Rk Hs) as (l1 & E1 & C1 & M1). { intros k n K. apply Rin. right. split; auto. }
    destruct (peer_interval_ok reg t Rk Ht) as (l2 & E2 & C2 & M2). { intros k n K. apply Rin. right. split; auto. }
    rewrite El in E1. injection E1 as <-. rewrite Em in E2. injection E2 as <-. apply canonical_ext; auto. intros z. rewrite M1, M2.
    assert (X : forall s t, ps_ok s -> (forall x, el_ok x -> el_in x s -> el_in x t) -> forall x, pt_in x s -> pt_in x t).
    { clear. intros s t Hs H [k n|y] Hx; [apply (H (EPeer k n) I); auto|]. destruct Hx as (b & Hb & Hy) eqn:Ex.
      destruct (pos_surj y) as (a & Ha & <-); [apply (Hs b Hb); auto|]. apply (H (EAddr a) Ha). exists b; auto. }
    split; intros (x & Hx & Ex); exists x; (split; [|auto]); [eapply (X s t)|eapply (X t s)]; eauto; intros; apply H; auto.
Qed.

(** Distinct registered peers have distinct indices, and indices never change when more peers are registered. *)
Theorem C18_indices_stable_and_distinct : forall hist more reg reg', register [] hist = Some reg -> register [] (hist ++ more) = Some reg' ->
  (forall p k, peer_index reg p = Some k -> peer_index reg' p = Some k)
  /\ (forall p q k, peer_index reg' p = Some k -> peer_index reg' q = Some k -> p = q)
  /\ (forall p, In p (hist ++ more) -> is_block p = false -> exists k, peer_index reg' p = Some k /\ 0 <= k < max_num_of_pods).
Proof.
  intros hist more reg reg' R R'.
  assert (R0 : reg_ok []) by (repeat split; [constructor|intros p []|vm_compute; discriminate]).
  destruct (register_ok _ _ _ R0 R) as (Rk & _ & _). destruct (register_ok _ _ _ R0 R') as (Rk' & Rin' & _).
  unfold register in R'. rewrite fold_left_app in R'. unfold register in R. rewrite R in R'.
  destruct (register_ok more reg reg' Rk R') as (_ & _ & t & ->).
  split; [|split].
  - intros p k H. apply peer_index_spec in H as [H1 H2]; [|apply Rk]. apply peer_index_spec; [apply Rk'|]. split; auto.
    rewrite nth_error_app1; auto. apply nth_error_Some. congruence.
  - intros p q k H1 H2. apply peer_index_spec in H1 as [_ H1]; [|apply Rk']. apply peer_index_spec in H2 as [_ H2]; [|apply Rk']. congruence.
  - intros p Hp Hb. destruct (peer_index_In (reg ++ t) p) as [k Hk]; [apply Rin'; auto|]. exists k. split; auto.
    apply peer_index_spec in Hk as [K1 K2]; [|apply Rk']. assert (Hn : nth_error (reg ++ t) (Z.to_nat k) <> None) by congruence.
    apply nth_error_Some in Hn. destruct Rk' as (_ & _ & L). lia.
Qed.

(** The whole index domain stands for all addresses and all registered peers (if there are any). *)
Theorem C18_whole_domain : forall hist reg, register [] hist = Some reg -> reg <> [] ->
  exists l s, all_peers_interval = Some l /\ peer_set_by_indices reg l = Some s /\
    (forall a, addr_ok a -> el_in (EAddr a) s) /\ (forall k n, el_in (EPeer k n) s <-> In (Named k n) hist).
Proof.
  intros hist reg R Ne.
  assert (R0 : reg_ok []) by (repeat split; [constructor|intros p []|vm_compute; discriminate]).
  destruct (register_ok _ _ _ R0 R) as (Rk & Rin & _).
  assert (E : all_peers_interval = Some [Ivl min_ipv4_index max_ipv4_index; Ivl min_ipv6_index max_ipv6_index; Ivl min_pod_index max_pod_index]) by (vm_compute; reflexivity).
  destruct icons as (K1 & K2 & K3 & K4 & K5). zc. 
  assert (Ln : (0 < List.length reg)%nat) by (destruct reg; [congruence|cbn; lia]).
  destruct (by_indices_ok reg [Ivl min_ipv4_index max_ipv4_index; Ivl min_ipv6_index max_ipv6_index; Ivl min_pod_index max_pod_index] Rk) as (s & Es & _ & _ & M).
  { unfold canonical, canon_from. cbn [lo hi]. unfold min_ipv4_index. lia. }
  { unfold zone_ok. intros i [<-|[<-|[<-|[]]]]; cbn [lo hi]; unfold min_ipv4_index; lia. }
  eexists. exists s. split; [exact E|]. split; auto. split.
  - intros a Ha. apply el_in_pt. cbn [topt]. apply M; [apply pos_vpos; auto|]. exists (addr_index (pos a)). split; auto.
    pose proof (pos_vpos a Ha) as V. unfold vpos in V. rewrite !mem_cons. cbn [lo hi]. unfold addr_index, min_ipv4_index. destruct (Z.leb_spec (pos a) v4max); lia.
  - intros k n. rewrite el_in_pt. cbn [topt]. rewrite M by auto. assert (X : In (Named k n) reg <-> In (Named k n) hist).
    { rewrite Rin. cbn. tauto. }
    rewrite <- X. split.
    + intros (z & _ & Ez). cbn [point_index] in Ez. destruct (peer_index reg (Named k n)) as [j|] eqn:Ej; [|discriminate].
      apply peer_index_spec in Ej as [_ J2]; [|apply Rk]. eapply nth_error_In; eauto.
    + intros H. destruct (peer_index_In reg (Named k n) H) as [j Ej]. exists (min_pod_index + j). split.
      * apply peer_index_spec in Ej as [J1 J2]; [|apply Rk]. assert (Hn : nth_error reg (Z.to_nat j) <> None) by congruence.
        apply nth_error_Some in Hn. destruct Rk as (_ & _ & L). unfold max_num_of_pods in L. rewrite !mem_cons. cbn [lo hi]. lia.
      * cbn [point_index]. rewrite Ej. reflexivity.
Qed.

(** Finding: indices of pods that are not registered (yet) are clamped to the last registered pod, so an
    index interval beyond the registered pods denotes a pod it does not contain; with no registered pod
    the whole domain raises IndexError. *)
Theorem C18_unregistered_indices_refuted :
  ~ (forall reg l s k n, reg_ok reg -> canonical l -> (forall i, In i l -> 0 <= lo i /\ hi i <= max_pod_index) ->
       peer_set_by_indices reg l = Some s -> In (Named k n) s -> exists j, peer_index reg (Named k n) = Some j /\ mem (min_pod_index + j) l)
  /\ bind all_peers_interval (peer_set_by_indices []) = None.
Proof.
  split; [|vm_compute; reflexivity]. intros H.
  destruct (H [Named 0 "a"; Named 0 "b"] [Ivl (min_pod_index + 4) (min_pod_index + 6)] [Named 0 "b"] 0%nat "b") as (j & Ej & Mj).
  - split; [|split; [|vm_compute; discriminate]].
    + constructor; [intros [E|[]]; discriminate|]. constructor; [intros []|constructor].
    + intros p [<-|[<-|[]]]; reflexivity.
  - cbn. lia.
  - intros i [<-|[]]. vm_compute. split; discriminate.
  - vm_compute. reflexivity.
  - left; auto.
  - cbn in Ej. injection Ej as <-. apply mem_single in Mj. cbn [lo hi] in Mj. lia.
Qed.

Definition ex_hist := [Named 0 "ns/a"; Named 0 "ns/b"; Named 0 "ns/a"; Block [Ivl 0 5]; Named 1 "ns/a"].
Example ex_reg : register [] ex_hist = Some [Named 0 "ns/a"; Named 0 "ns/b"; Named 1 "ns/a"].
Proof. reflexivity. Qed.
Example ex_round : exists l, peer_interval_of [Named 0 "ns/a"; Named 0 "ns/b"; Named 1 "ns/a"] [Named 1 "ns/a"; Block [Ivl 7 v4max; Ivl v6min (v6min + 3)]; Named 0 "ns/b"] = Some l
  /\ List.length l = 3%nat
  /\ peer_set_by_indices [Named 0 "ns/a"; Named 0 "ns/b"; Named 1 "ns/a"] l = Some [Named 0 "ns/b"; Named 1 "ns/a"; Block [Ivl 7 v4max]; Block [Ivl v6min (v6min + 3)]].
Proof. eexists. split; [vm_compute; reflexivity|]. split; vm_compute; reflexivity. Qed.
Print Assumptions C18_round_trip.
Print Assumptions C18_indices_determine_the_set.
Print Assumptions C18_indices_stable_and_distinct.
Print Assumptions C18_whole_domain.
Print Assumptions C18_unregistered_indices_refuted.
