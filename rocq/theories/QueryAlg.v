(** * The query operations implemented by the modelled ConnectivityProperties objects, and their laws. *)
From Coq Require Import ZArith List Bool Arith Lia String.
From Verif Require Import IntervalModel IntervalFacts HyperModel HyperFacts HyperOps HyperDims HyperTop HyperContain
                          HyperInst PropHyperCube ConnModel ConnFacts PortProtoModel PeerModel PeerFacts PeerSetFacts
                          PolicyModel PolicyLaws PolicyFacts LayerFacts ConnAlg StdDims QueryModel QueryFacts.
Import ListNotations.
Local Open Scope nat_scope.

(** project_on_one_dimension for a peers dimension, ConnectivityProperties.py:227-254. *)
Definition cube_project (dom : dim -> val) (all : list dim) (reg : list peer) (x : hc val) (d : dim) : peerset :=
  match project (val_ops dom) (dim_empty dom) all x d with
  | VI l => match peer_set_by_indices reg l with Some s => s | None => [] end
  | VN _ _ => []
  end.
(** ConnectivityProperties(): hall, ConnectivityProperties.py:60-75; get_all_peers, lines 369-374. *)
Definition cube_qops (dom : dim -> val) (all : list dim) (reg : list peer) : qops (hc val) :=
  QOps (hall Conn) (fun x => ps_union (cube_project dom all reg x d_src) (cube_project dom all reg x d_dst)).

Section QAlg.
Context (dom : dim -> val) (rest : list dim) (reg vis : list peer) (D protos : iset).
Let all := d_src :: d_dst :: d_proto :: rest.
Let O := val_ops dom.
(** The domain of a query: the addresses and exactly the peers [vis], NetworkConfigQuery.py:85-90. *)
Record qalg_ok : Prop := {
  qa_alg : alg_ok dom rest reg vis D protos;
  qa_exact : forall z, mem z D -> (min_pod_index <= z)%Z -> exists p j, In p vis /\ peer_index reg p = Some j /\ z = (min_pod_index + j)%Z;
  qa_vis : exists p, In p vis
}.
Context (QK : qalg_ok).
Let K := qa_alg QK.
Let L := val_laws dom (ok_doms _ _ _ _ _ _ K).
Let N := ok_nodup _ _ _ _ _ _ K.
Let NE : all <> [].
Proof. discriminate. Qed.

Definition q_src : (dim -> Z) -> point := a_src reg.
Definition q_dst : (dim -> Z) -> point := a_dst reg.
Definition q_space : (dim -> Z) -> Prop := a_space dom.
(** The queries only see ConnectivityProperties objects. *)
Definition q_ok (x : hc val) : Prop := a_ok dom rest x /\ cls_of x = Conn.
Definition q_put (p q : dim -> Z) : dim -> Z := upd p d_src (q d_src).

Local Notation A := (cube_ops dom all reg).
Local Notation QQ := (cube_qops dom all reg).
Local Notation CL := (cube_laws dom rest reg vis D protos K).
Local Opaque min_pod_index max_pod_index min_ipv6_index max_ipv6_index max_ipv4_index v4max v6min v6max.

Lemma obj_node : forall x, a_ok dom rest x -> exists c a ls, x = Node c a ls.
Proof using.
  intros x Hx. destruct Hx as [_ [[c ->]|[[c [a [-> _]]]|Pr]]].
  - unfold hall. eauto.
  - eauto.
  - destruct (proper_shape _ _ _ _ _ _ Pr) as (c & d & ds & ls & -> & _). eauto.
Qed.
Lemma rect_conn : forall s d pr, opt (pok vis) s -> opt (pok vis) d -> cls_of (c_rect A s d pr) = Conn.
Proof using QK.
  intros s d pr Hs Hd. destruct (obj_node _ (l_rect_ok _ _ _ _ _ _ _ _ _ CL s d pr Hs Hd)) as (c & a & ls & E).
  cbn [cube_ops c_rect] in *. unfold make_props in *. destruct (ccube_is_empty _ _ _ _); [reflexivity|].
  destruct (ccube_ordered _ _ _) as [|q qs]; [reflexivity|]. unfold add_cube in *. destruct (forallb _ _); [|reflexivity].
  destruct (h_or _ _ _ _); cbn [override cls_of hempty] in *; try discriminate. reflexivity.
Qed.
Lemma q_claws : claws A q_src q_dst a_tcp q_space a_mem q_ok (a_safe rest) vis.
Proof using QK.
  pose proof CL as [l1 l2 l3 l4 l5 l6 l7 l8 l9 l10 l11 l12 l13 l14 l15 l16 l17 l18 l19 l20 l21 l22].
  assert (CO : forall x y, q_ok x -> q_ok y -> q_ok (c_or A x y)).
  { intros x y [Hx Cx] [Hy Cy]. split; [apply l4; auto|]. cbn [cube_ops c_or].
    rewrite <- Cx. apply (h_or_spec O val_mem (val_valid dom) L false all x y N NE Hx Hy). }
  assert (CA : forall x y, q_ok x -> q_ok y -> q_ok (c_and A x y)).
  { intros x y [Hx Cx] [Hy Cy]. split; [apply l6; auto|]. cbn [cube_ops c_and].
    rewrite <- Cx. apply (h_and_spec O val_mem (val_valid dom) L false all x y N NE Hx Hy). }
  assert (CS : forall x y, q_ok x -> q_ok y -> a_safe rest x y -> q_ok (c_sub A x y)).
  { intros x y [Hx Cx] [Hy Cy] S. split; [apply l8; auto|]. cbn [cube_ops c_sub].
    rewrite <- Cx. apply (h_sub_spec O val_mem (val_valid dom) L false all x y N NE Hx Hy S). }
  assert (CR : forall s d pr, opt (pok vis) s -> opt (pok vis) d -> q_ok (c_rect A s d pr)).
  { intros s d pr Hs Hd. split; [apply l13; auto|apply rect_conn; auto]. }
  assert (CE : q_ok (c_empty A)) by (split; [apply l2|reflexivity]).
  assert (CK : forall x, q_ok x -> a_ok dom rest x) by (intros x [H _]; exact H).
  constructor; eauto.
Qed.

(** An empty intersection of two non-empty objects keeps their active dimensions. *)
Lemma and_empty_act : forall x y, a_ok dom rest x -> a_ok dom rest y -> is_all x = false -> is_all y = false -> hbool x = true -> hbool y = true ->
  hbool (h_and O all x y) = false -> forall e, In e (act_of x) \/ In e (act_of y) -> In e (act_of (h_and O all x y)).
Proof using QK.
  intros x y Hx Hy Ix Iy Bx By B e He.
  destruct (obj_cases _ _ _ _ _ _ Hx) as [E|[(X & _)|Px]]; [rewrite E in Ix; discriminate|congruence|].
  destruct (obj_cases _ _ _ _ _ _ Hy) as [E|[(X & _)|Py]]; [rewrite E in Iy; discriminate|congruence|].
  assert (T : forall h : hc val, false = true -> cls_of h = Plain) by discriminate.
  destruct (prepare_spec O val_mem (val_valid dom) L false all x y N (T x) (T y) (or_intror Px) Py)
        as (ds & x' & y' & Ep & NEd & Sd & G1 & G2 & _ & _).
  pose proof Px as (NEx & Sx & Gx & _). pose proof Py as (NEy & Sy & Gy & _).
  assert (Hds : In e ds).
  { unfold prepare in Ep. destruct ds as [|d0 ds0]; [congruence|]. destruct (gc_inv _ _ _ _ _ _ _ G2) as (c2 & l2 & Ey' & _).
    destruct (dims_eqb (act_of x) (act_of y)) eqn:Eq.
    { injection Ep as <- <-. rewrite Ey' in *. destruct (gc_inv _ _ _ _ _ _ _ G1) as (c1 & l1 & Ex' & _). rewrite Ex' in He. cbn [act_of] in He. tauto. }
    destruct (subset_dims (act_of x) (act_of y)) eqn:Es.
    { injection Ep as <- <-. rewrite Ey' in He, Es. cbn [act_of] in He, Es. destruct He as [He|He]; auto. eapply subset_dims_spec; eauto. }
    injection Ep as _ Ey2.
    destruct (set_active_spec O val_mem (val_valid dom) L false all (act_of x ++ act_of y) y N NEy Sy) as [G3 _].
    - apply (proper_ok O val_mem (val_valid dom) L false all y N (T y) Py).
    - intros f Hf. apply in_app_iff in Hf as [Hf|Hf]; [apply (subseq_in _ _ Sx)|apply (subseq_in _ _ Sy)]; auto.
    - rewrite Ey2 in G3. rewrite Ey' in G3. set (bo := by_order all (act_of y ++ (act_of x ++ act_of y))) in *.
      assert (Eb : bo = d0 :: ds0).
      { destruct bo as [|b0 bs] eqn:Eb.
        - exfalso. apply (by_order_ne all (act_of y) (act_of x ++ act_of y)); auto.
        - destruct (gc_inv _ _ _ _ _ _ _ G3) as (c3 & l3 & E3 & _). injection E3 as _ -> -> _. reflexivity. }
      rewrite <- Eb. unfold bo. apply by_order_in. rewrite !in_app_iff. split; [|tauto].
      destruct He as [He|He]; [apply (subseq_in _ _ Sx)|apply (subseq_in _ _ Sy)]; auto. }
  unfold h_and in B |- *. rewrite Ix, Iy, Bx, By in B |- *. cbn [negb orb] in B |- *. rewrite Ep in B |- *.
  assert (Nd : NoDup ds) by (eapply subseq_nodup; eauto).
  destruct (and_aux_spec O val_mem (val_valid dom) L false ds x' y' Nd NEd G1 G2) as (ls & El & Cl & _).
  rewrite El in B |- *. cbn [override] in B |- *.
  destruct Cl as [->|G]; [rewrite reduce_empty by auto; exact Hds|exfalso].
  rewrite El in G. assert (G' : gc (val_ops dom) val_mem (val_valid dom) false ds (Node (cls_of x) ds ls)) by (eapply gc_retag; eauto).
  destruct (reduce_active_spec O val_mem (val_valid dom) L false all (Node (cls_of x) ds ls)) as (_ & _ & [C|C]); auto.
  - rewrite C in B. discriminate.
  - destruct (proper_hbool _ _ _ _ _ _ C) as [Bt _]. congruence.
Qed.
Lemma src_safe : forall x y, In d_src (act_of x) -> a_safe rest x y.
Proof using.
  intros x y H. unfold a_safe, sub_safe. apply orb_true_iff. right. fold all.
  destruct (first_dim rest (act_of x ++ act_of y)) as [t E]; [apply in_app_iff; auto|]. fold all in E. rewrite E. apply mem_dim_In. exact H.
Qed.
Lemma src_active : forall r p q, a_ok dom rest r -> q_space p -> q_space q -> a_mem p r -> ~ a_mem (q_put p q) r ->
  hbool r = true /\ is_all r = false /\ In d_src (act_of r).
Proof using QK.
  intros r p q Hr Sp Sq Mp Mq.
  assert (Su : q_space (q_put p q)). { intros e. unfold q_put, upd. destruct (Nat.eqb_spec e d_src) as [->|]; [apply Sq|apply Sp]. }
  split; [|split].
  - apply (hbool_spec O val_mem (val_valid dom) L false all r N Hr). exists p. auto.
  - destruct (is_all r) eqn:I; auto. exfalso. apply Mq. apply (is_all_spec O val_mem (val_valid dom) L false all r N Hr); auto.
  - destruct (in_dec Nat.eq_dec d_src (act_of r)) as [H|H]; auto. exfalso. apply Mq. apply (indom_upd_indep val_mem r d_src p (q d_src)); auto.
Qed.
Lemma hbool_none : forall y, a_ok dom rest y -> (forall pt, q_space pt -> ~ a_mem pt y) -> hbool y = false /\ is_all y = false.
Proof using QK.
  intros y Hy Hn.
  assert (B : hbool y = false).
  { destruct (hbool y) eqn:B; auto. exfalso. apply (hbool_spec O val_mem (val_valid dom) L false all y N Hy) in B as (p & P1 & P2). apply (Hn p P1 P2). }
  split; auto. destruct (obj_cases _ _ _ _ _ _ Hy) as [E|[(_ & I & _)|Pr]]; auto.
  - rewrite E in B. discriminate.
  - apply (proper_hbool _ _ _ _ _ _ Pr).
Qed.
Lemma not_all : forall x, a_ok dom rest x -> (exists pt, q_space pt /\ ~ a_mem pt x) -> is_all x = false.
Proof using QK.
  intros x Hx (p & Sp & Mp). destruct (is_all x) eqn:I; auto. exfalso. apply Mp. apply (is_all_spec O val_mem (val_valid dom) L false all x N Hx); auto.
Qed.

(** ** Points and peers *)
Lemma space_D : forall p, q_space p -> mem (p d_src) D /\ mem (p d_dst) D.
Proof using QK.
  intros p H. split; [specialize (H d_src)|specialize (H d_dst)]; cbn in H; [rewrite (ok_src _ _ _ _ _ _ K) in H|rewrite (ok_dst _ _ _ _ _ _ K) in H]; exact H.
Qed.
Lemma D_point : forall z, mem z D -> anywhere vis (point_of_index reg z).
Proof using QK.
  intros z Hz. pose proof (ok_D_bound _ _ _ _ _ _ K z Hz) as B. pose proof icons as (K1 & K2 & K3 & K4 & K5). pose proof consts as (Q1 & Q2 & Q3).
  unfold point_of_index. destruct (Z.leb_spec z max_ipv4_index) as [H4|H4].
  { right. cbn [is_addr]. unfold vpos. lia. }
  destruct (Z.leb_spec z max_ipv6_index) as [H6|H6].
  { right. cbn [is_addr]. unfold vpos. lia. }
  destruct (qa_exact QK z Hz) as (p & j & Hp & Ej & Ez); [lia|]. apply peer_index_spec in Ej as [J1 J2]; [|apply (ok_reg _ _ _ _ _ _ K)].
  replace (z - min_pod_index)%Z with j by lia. rewrite J2. destruct p as [k n|l]; [left; exact Hp|].
  exfalso. destruct (ok_reg _ _ _ _ _ _ K) as (_ & R2 & _). apply (ok_vis _ _ _ _ _ _ K) in Hp. apply R2 in Hp. discriminate.
Qed.
Lemma point_D : forall x, anywhere vis x -> exists z, mem z D /\ point_of_index reg z = x.
Proof using QK.
  intros x H. pose proof icons as (K1 & K2 & K3 & K4 & K5). pose proof consts as (Q1 & Q2 & Q3).
  destruct x as [k n|y].
  - destruct H as [H|[]]. cbn [member] in H. destruct (peer_index_In reg (Named k n)) as [j Ej]; [apply (ok_vis _ _ _ _ _ _ K); auto|].
    pose proof (ok_D_vis _ _ _ _ _ _ K _ _ H Ej) as Hz. exists (min_pod_index + j)%Z. split; auto.
    apply (ok_D_bound _ _ _ _ _ _ K) in Hz. apply peer_index_spec in Ej as [J1 J2]; [|apply (ok_reg _ _ _ _ _ _ K)].
    unfold point_of_index. destruct (Z.leb_spec (min_pod_index + j) max_ipv4_index); [lia|]. destruct (Z.leb_spec (min_pod_index + j) max_ipv6_index); [lia|].
    replace (min_pod_index + j - min_pod_index)%Z with j by lia. rewrite J2. reflexivity.
  - destruct H as [[]|H]. cbn [is_addr] in H. unfold vpos in H. exists (addr_index y). unfold addr_index. destruct (Z.leb_spec y v4max).
    + split; [apply (ok_D_addr _ _ _ _ _ _ K); lia|]. unfold point_of_index. destruct (Z.leb_spec y max_ipv4_index); [reflexivity|lia].
    + split; [apply (ok_D_addr _ _ _ _ _ _ K); lia|]. unfold point_of_index. destruct (Z.leb_spec (min_ipv6_index + (y - v6min)) max_ipv4_index); [lia|].
      destruct (Z.leb_spec (min_ipv6_index + (y - v6min)) max_ipv6_index); [f_equal; lia|lia].
Qed.
Lemma some_point : forall x y b, anywhere vis x -> anywhere vis y -> exists pt, q_space pt /\ q_src pt = x /\ q_dst pt = y /\ a_tcp pt = b.
Proof using QK.
  intros x y b Hx Hy. destruct (point_D x Hx) as (zx & Zx & Ex). destruct (point_D y Hy) as (zy & Zy & Ey).
  assert (Zp : exists zp, mem zp protos /\ (zp =? tcp_number)%Z = b).
  { destruct b; [exists tcp_number; split; [apply (ok_tcp _ _ _ _ _ _ K)|apply Z.eqb_refl]|].
    destruct (ok_other _ _ _ _ _ _ K) as (z & Z1 & Z2). exists z. split; auto. apply Z.eqb_neq. auto. }
  destruct Zp as (zp & Zp & Ep).
  pose (pt := fun e => if Nat.eqb e d_src then zx else if Nat.eqb e d_dst then zy else if Nat.eqb e d_proto then zp else vrep O (dom e)).
  exists pt. split; [|auto]. intros e. unfold pt. cbn [val_ops vdom].
  destruct (Nat.eqb_spec e d_src) as [->|]; [rewrite (ok_src _ _ _ _ _ _ K); exact Zx|].
  destruct (Nat.eqb_spec e d_dst) as [->|]; [rewrite (ok_dst _ _ _ _ _ _ K); exact Zy|].
  destruct (Nat.eqb_spec e d_proto) as [->|]; [rewrite (ok_protos _ _ _ _ _ _ K); exact Zp|].
  apply (L_rep _ _ _ L e); [apply (L_dom _ _ _ L)|apply (L_dom_ne _ _ _ L)].
Qed.

(** ** get_all_peers *)
Lemma project_valid : forall x d, a_ok dom rest x -> dom d = VI D ->
  exists l, project O (dim_empty dom) all x d = VI l /\ canonical l /\ (forall z, mem z l -> mem z D) /\
    forall p, q_space p -> a_mem p x -> mem (p d) l.
Proof using QK.
  intros x d Hx Ed.
  assert (Ve : val_valid dom d (dim_empty dom d)).
  { unfold dim_empty. rewrite Ed. split; [exact I|]. rewrite Ed. split; [exact I|]. intros z Hz. apply mem_nil in Hz. destruct Hz. }
  assert (Ne : forall z, ~ val_mem z (dim_empty dom d)) by (intros z; unfold dim_empty; rewrite Ed; cbn [val_mem]; rewrite mem_nil; tauto).
  assert (V : val_valid dom d (project O (dim_empty dom) all x d) /\ forall p, q_space p -> a_mem p x -> val_mem (p d) (project O (dim_empty dom) all x d)).
  { destruct (hbool x) eqn:B.
    - destruct (project_spec O val_mem (val_valid dom) L all N false x d (dim_empty dom) Hx B Ve Ne) as [V M]. split; auto.
      intros p Sp Mp. apply M. exists p. auto.
    - split; [|intros p Sp Mp; exfalso].
      + destruct (obj_cases _ _ _ _ _ _ Hx) as [E|[(_ & I & E & NEa & _)|Pr]].
        * rewrite E in B. discriminate.
        * unfold project. destruct (mem_dim d (act_of x)); [|apply (L_dom _ _ _ L)]. cbn [negb].
          rewrite E. unfold iter_cubes. destruct (act_of x) as [|a0 a] eqn:Ea; [congruence|]. cbn [act_of hbool is_all negb]. cbn. destruct (Datatypes.length a =? 0)%nat; exact Ve.
        * destruct (proper_hbool _ _ _ _ _ _ Pr) as [X _]. congruence.
      + assert (X : hbool x = true) by (apply (hbool_spec O val_mem (val_valid dom) L false all x N Hx); exists p; auto). congruence. }
  destruct V as [(V1 & V2 & V3) M]. rewrite Ed in V2, V3. destruct (project O (dim_empty dom) all x d) as [l|c l]; [|destruct V2].
  exists l. split; [reflexivity|]. split; [exact V1|]. split; [exact V3|exact M].
Qed.
Lemma by_indices_vis : forall l, canonical l -> (forall z, mem z l -> mem z D) ->
  exists s, peer_set_by_indices reg l = Some s /\ pok vis s /\ forall z, mem z l -> pt_in (point_of_index reg z) s.
Proof using QK.
  intros l C M. pose proof (ok_reg _ _ _ _ _ _ K) as R. pose proof icons as (K1 & K2 & K3 & K4 & K5). pose proof consts as (Q1 & Q2 & Q3).
  assert (PB : forall j p, peer_index reg p = Some j -> (0 <= j < Z.of_nat (List.length reg))%Z).
  { intros j p Ej. apply peer_index_spec in Ej as [J1 J2]; [|apply R]. assert (Hn : nth_error reg (Z.to_nat j) <> None) by congruence.
    apply nth_error_Some in Hn. lia. }
  assert (Zs : forall z, mem z l -> zone_ok reg (Ivl z z)).
  { intros z Hz. apply M in Hz. pose proof (ok_D_bound _ _ _ _ _ _ K z Hz) as B. unfold zone_ok. cbn [lo hi].
    destruct B as [B|[B|B]]; [left; lia|right; left; lia|]. right; right. destruct (qa_exact QK z Hz) as (p & j & Hp & Ej & Ez); [lia|].
    apply PB in Ej. lia. }
  assert (ZZ : forall i, In i l -> zone_ok reg i).
  { intros i Hi. pose proof (canonical_in _ _ C Hi) as Li.
    assert (X : zone_ok reg (Ivl (lo i) (lo i))) by (apply Zs; exists i; split; [auto|lia]).
    assert (Y : zone_ok reg (Ivl (hi i) (hi i))) by (apply Zs; exists i; split; [auto|lia]).
    assert (M4 : ~ (lo i <= max_ipv4_index + 1 <= hi i)%Z).
    { intros Hm. assert (Zm : zone_ok reg (Ivl (max_ipv4_index + 1) (max_ipv4_index + 1))) by (apply Zs; exists i; auto). unfold zone_ok in Zm. cbn [lo hi] in Zm. lia. }
    assert (M6 : ~ (lo i <= max_ipv6_index + 1 <= hi i)%Z).
    { intros Hm. assert (Zm : zone_ok reg (Ivl (max_ipv6_index + 1) (max_ipv6_index + 1))) by (apply Zs; exists i; auto). unfold zone_ok in Zm. cbn [lo hi] in Zm. lia. }
    unfold zone_ok in *. cbn [lo hi] in *. lia. }
  destruct (by_indices_ok reg l R C ZZ) as (s & E & P & _ & H). exists s. split; auto.
  assert (Pk : pok vis s).
  { split; auto. intros k n Hs. apply (H (PN k n) I) in Hs as (z & Hz & Ez). cbn [point_index] in Ez.
    destruct (peer_index reg (Named k n)) as [j|] eqn:Ej; [|discriminate]. cbn in Ez. injection Ez as Ez.
    pose proof (PB _ _ Ej) as J. destruct (qa_exact QK z (M z Hz)) as (p & j' & Hp & Ej' & Ez'); [lia|].
    assert (j = j') by lia. subst j'. apply peer_index_spec in Ej as [_ J2]; [|apply R]. apply peer_index_spec in Ej' as [_ J2']; [|apply R]. congruence. }
  split; auto. intros z Hz. apply (point_index_of dom rest reg vis D protos K s z Pk (M z Hz)).
  pose proof (D_point z (M z Hz)) as An. exists (point_of_index reg z).
  assert (E1 : point_index reg (point_of_index reg z) = Some z).
  { pose proof (ok_D_bound _ _ _ _ _ _ K z (M z Hz)) as B. unfold point_of_index. destruct (Z.leb_spec z max_ipv4_index) as [H4|H4].
    { cbn [point_index]. unfold addr_index. destruct (Z.leb_spec z v4max); [reflexivity|lia]. }
    destruct (Z.leb_spec z max_ipv6_index) as [H6|H6].
    { cbn [point_index]. unfold addr_index. destruct (Z.leb_spec (z - min_ipv6_index + v6min) v4max); [lia|f_equal; lia]. }
    destruct (qa_exact QK z (M z Hz)) as (p & j & Hp & Ej & Ez); [lia|]. pose proof Ej as Ej0. apply peer_index_spec in Ej as [J1 J2]; [|apply R].
    replace (z - min_pod_index)%Z with j by lia. rewrite J2. destruct p as [k n|m].
    - cbn [point_index]. rewrite Ej0. cbn. f_equal. lia.
    - exfalso. destruct R as (_ & R2 & _). apply (ok_vis _ _ _ _ _ _ K) in Hp. apply R2 in Hp. discriminate. }
  split; auto. apply H; [|exists z; auto].
  destruct (point_of_index reg z) as [k n|y]; auto. destruct An as [[]|An]. exact An.
Qed.
Lemma cube_project_spec : forall x d, a_ok dom rest x -> dom d = VI D -> pok vis (cube_project dom all reg x d) /\
  forall p, q_space p -> a_mem p x -> pt_in (point_of_index reg (p d)) (cube_project dom all reg x d).
Proof using QK.
  intros x d Hx Ed. destruct (project_valid x d Hx Ed) as (l & E & C & M & P). unfold cube_project. fold O. rewrite E.
  destruct (by_indices_vis l C M) as (s & -> & Pk & H). split; auto.
Qed.

Lemma gc_eqb_refl : forall ds x, gc O val_mem (val_valid dom) false ds x -> hc_eqb O x x = true.
Proof using QK.
  induction ds as [|d ds IH]; intros x G; [cbn in G; subst x; reflexivity|].
  destruct (gc_inv _ _ _ _ _ _ _ G) as (c & ls & -> & NEl & Lk & F & _). rewrite eqb_node by auto.
  assert (Ec : cls_eqb c c = true) by (destruct c; reflexivity). rewrite Ec, Nat.eqb_refl. cbn [andb]. apply forallb_forall.
  intros [v s] Hin. pose proof Lk as [Kk _]. destruct (keyok_in _ _ _ _ _ _ Kk Hin) as [Vv _].
  rewrite (dget_complete O val_mem (val_valid dom) L d ls v v s); auto; [|tauto].
  rewrite Forall_forall in F. apply IH. apply (F _ Hin).
Qed.
Lemma obj_eqb_refl : forall x, a_ok dom rest x -> hc_eqb O x x = true.
Proof using QK.
  assert (Ec : forall c, cls_eqb c c = true) by (intros []; reflexivity).
  intros x Hx. destruct Hx as [_ [[c ->]|[[c [a [-> [Na _]]]]|Pr]]].
  - destruct c; reflexivity.
  - cbn [hc_eqb]. rewrite Ec. destruct a; [congruence|]. reflexivity.
  - destruct Pr as (_ & _ & G & _). eapply gc_eqb_refl; eauto.
Qed.

Theorem q_qlaws : qlaws A QQ q_src q_dst a_tcp q_space a_mem q_ok (a_safe rest) vis q_put.
Proof using QK.
  pose proof q_claws as CQ. pose proof CL as CL0.
  constructor.
  - split; [|reflexivity]. split; [discriminate|]. left. exists Conn. reflexivity.
  - intros pt _. exact I.
  - intros x [Hx Cx]. reflexivity.
  - intros x [Hx Cx]. cbn [cube_qops q_peers].
    destruct (cube_project_spec x d_src Hx (ok_src _ _ _ _ _ _ K)) as [P1 _]. destruct (cube_project_spec x d_dst Hx (ok_dst _ _ _ _ _ _ K)) as [P2 _].
    apply pok_union; auto.
  - intros x pt [Hx Cx] Sp M. cbn [cube_qops q_peers].
    destruct (cube_project_spec x d_src Hx (ok_src _ _ _ _ _ _ K)) as [P1 M1]. destruct (cube_project_spec x d_dst Hx (ok_dst _ _ _ _ _ _ K)) as [P2 M2].
    split; apply pt_in_union; [left|right]; [apply M1|apply M2]; auto.
  - intros pt Sp. destruct (space_D pt Sp). split; apply D_point; auto.
  - exact some_point.
  - intros p q Sp Sq. split; [|repeat split].
    intros e. unfold q_put, upd. destruct (Nat.eqb_spec e d_src) as [->|]; [apply Sq|apply Sp].
  - exact (qa_vis QK).
  - intros x r y p q [Hx Cx] [Hr Cr] [Hy Cy] Sp Sq Mp Mq. destruct (src_active r p q Hr Sp Sq Mp Mq) as (Br & Ir & Ar).
    cbn [cube_ops c_and].
    assert (F : forall c, a_safe rest (hempty c all) y) by (intros c; apply (fresh_safe dom rest c y Hy)).
    split.
    + destruct (hbool (h_and O all x r)) eqn:B; [unfold a_safe, sub_safe; fold O; rewrite B; reflexivity|].
      destruct (is_all x) eqn:Ix.
      { exfalso. unfold h_and in B. rewrite Ir, Br, Ix in B. destruct (hbool x) eqn:Bx; cbn [negb orb] in B.
        - destruct r; cbn in B, Br; try discriminate. congruence.
        - destruct (obj_cases _ _ _ _ _ _ Hx) as [E|[(_ & X & _)|Pr]]; [rewrite E in Bx; discriminate|congruence|].
          destruct (proper_hbool _ _ _ _ _ _ Pr). congruence. }
      destruct (hbool x) eqn:Bx.
      * apply src_safe. apply and_empty_act; auto.
      * unfold h_and. rewrite Ir, Bx, Br. cbn [negb orb]. apply F.
    + destruct (hbool (h_and O all r x)) eqn:B; [unfold a_safe, sub_safe; fold O; rewrite B; reflexivity|].
      destruct (is_all x) eqn:Ix.
      { unfold h_and in B. rewrite Ix in B. congruence. }
      destruct (hbool x) eqn:Bx.
      * apply src_safe. apply and_empty_act; auto.
      * unfold h_and. rewrite Ix, Bx, Br. cbn [negb orb]. apply F.
  - intros x r y [Hx Cx] [Hr Cr] [Hy Cy] Hn. destruct (hbool_none r Hr Hn) as [Br Ir]. cbn [cube_ops c_and]. unfold h_and. rewrite Ir, Br.
    cbn [negb orb]. apply (fresh_safe dom rest _ y Hy).
  - intros x [Hx Cx]. cbn [cube_ops c_and c_empty]. unfold h_and. destruct (is_all x); [reflexivity|].
    cbn [hempty hbool negb]. rewrite orb_true_r. reflexivity.
  - intros s d pr Hs Hd Hn. destruct (make_props_cases dom rest reg vis D protos K s d pr Hs Hd) as [E|B]; [exact E|]. exfalso.
    apply (l_bool _ _ _ _ _ _ _ _ _ CL0 (c_rect A s d pr) (l_rect_ok _ _ _ _ _ _ _ _ _ CL0 s d pr Hs Hd)) in B as (p & P1 & P2). apply (Hn p P1 P2).
  - intros x r y p q [Hx Cx] [Hr Cr] [Hy Cy] Sf Sp Sq Mp Mq. destruct (src_active r p q Hr Sp Sq Mp Mq) as (Br & Ir & Ar).
    cbn [cube_ops c_sub]. destruct (hbool (h_sub O all x r)) eqn:B; [unfold a_safe, sub_safe; fold O; rewrite B; reflexivity|].
    apply src_safe. apply (sub_empty_act dom rest reg vis D protos K x r Hx Hr Br Ir Sf B d_src Ar).
  - intros x [Hx Cx]. cbn [cube_ops c_eqb]. apply obj_eqb_refl; auto.
  - intros x y r [Hx Cx] [Hy Cy] [Hr Cr] Ex Ey Er S. cbn [cube_ops c_eqb c_and] in *.
    apply (eqb_intersections O val_mem (val_valid dom) L all x y r N NE Hx Hy Hr); auto; [congruence| | |]; apply not_all; auto.
Qed.
End QAlg.

(** ** The domain of a query *)
(** NetworkConfigQuery.py:74-90: the peers dimensions range over the addresses and the peers of all configurations of
    the query ([vis]); the other dimensions are as in DimensionsManager.py:36-76. *)
Definition query_peers (reg vis : list peer) : iset := oset (peer_interval_of reg (peers_group vis true true)).
Definition query_dom (reg vis : list peer) (d : dim) : val :=
  match d with 0 | 1 => VI (query_peers reg vis) | _ => std_dom d end.

Local Opaque min_pod_index max_pod_index min_ipv6_index max_ipv6_index max_ipv4_index v4max v6min v6max all_ips.
Theorem query_alg : forall reg vis, reg_ok reg -> container reg vis -> vis <> [] ->
  qalg_ok (query_dom reg vis) std_rest reg vis (query_peers reg vis) [Ivl 0 255].
Proof.
  intros reg vis R HC NE. pose proof icons as (K1 & K2 & K3 & K4 & K5). pose proof consts as (Q1 & Q2 & Q3).
  destruct (peers_group_spec reg vis true true HC) as [[G1 G2] G3].
  destruct (peer_interval_ok reg (peers_group vis true true) R G1 G2) as (r & E & C & M).
  assert (Pt : exists p, In p vis) by (destruct vis as [|p ?]; [congruence|]; exists p; left; auto).
  assert (PB : forall p j, In p vis -> peer_index reg p = Some j -> (0 <= j < 10000)%Z).
  { intros p j Hp Ej. destruct R as (R1 & _ & R3). apply peer_index_spec in Ej as [J1 J2]; [|exact R1].
    assert (Hn : nth_error reg (Z.to_nat j) <> None) by congruence. apply nth_error_Some in Hn. unfold max_num_of_pods in R3. lia. }
  assert (MP : forall z, mem z r <-> (0 <= z <= max_ipv4_index)%Z \/ (min_ipv6_index <= z <= max_ipv6_index)%Z \/
                 exists p j, In p vis /\ peer_index reg p = Some j /\ z = (min_pod_index + j)%Z).
  { intros z. rewrite M. split.
    - intros (x & Hx & Ex). apply G3 in Hx as [[Hx _]|[_ Hx]]; destruct x as [k n|y]; try (destruct Hx; fail).
      + right; right. cbn [member point_index] in Hx, Ex. destruct (peer_index reg (Named k n)) as [j|] eqn:Ej; [|discriminate].
        cbn in Ex. injection Ex as <-. exists (Named k n), j. auto.
      + cbn [is_addr point_index] in Hx, Ex. injection Ex as <-. unfold vpos in Hx. unfold addr_index. destruct (Z.leb_spec y v4max); [left|right; left]; lia.
    - intros [H|[H|(p & j & Hp & Ej & ->)]].
      + exists (PA z). split; [apply G3; right; split; [auto|cbn [is_addr]; unfold vpos; lia]|]. cbn [point_index]. unfold addr_index. destruct (Z.leb_spec z v4max); [auto|lia].
      + exists (PA (z - min_ipv6_index + v6min)). split; [apply G3; right; split; [auto|cbn [is_addr]; unfold vpos; lia]|].
        cbn [point_index]. unfold addr_index. destruct (Z.leb_spec (z - min_ipv6_index + v6min) v4max); [lia|f_equal; lia].
      + destruct p as [k n|l]; [|destruct (HC _ Hp); discriminate]. exists (PN k n). split; [apply G3; left; cbn [member]; auto|].
        cbn [point_index]. rewrite Ej. reflexivity. }
  unfold query_peers. rewrite E. cbn [oset].
  assert (QE : forall d, query_dom reg vis d = match d with 0 | 1 => VI r | _ => std_dom d end).
  { intros d. unfold query_dom, query_peers. rewrite E. reflexivity. }
  pose proof (std_alg reg R) as [T1 T2 _ _ _ _ _ _ _ _ _ T12 T13 T14].
  assert (PI : forall p, In p vis -> exists j, peer_index reg p = Some j) by (intros p Hp; apply peer_index_In; apply HC; auto).
  constructor; [constructor|..]; auto; rewrite ?QE; auto.
  - intros d. rewrite QE. do 2 (destruct d as [|d]; [split; [exact C|]; intros ->; assert (X : mem 0 []) by (apply MP; left; lia); apply mem_nil in X; exact X|]).
    apply (T1 (S (S d))).
  - intros p Hp. apply HC; auto.
  - intros z Hz. apply MP in Hz as [H|[H|(p & j & Hp & Ej & ->)]]; auto. specialize (PB p j Hp Ej). right; right; lia.
  - intros z H. apply MP. tauto.
  - intros p j Hp Ej. apply MP. right; right. eauto.
  - destruct Pt as [p Hp]. destruct (PI p Hp) as [j Ej]. exists (min_pod_index + j)%Z. specialize (PB p j Hp Ej). split; [|lia]. apply MP. right; right. eauto.
  - intros z Hz Hm. apply MP in Hz as [H|[H|H]]; auto; exfalso; lia.
Qed.
