(** * The operations used by the minimization of firewall rules, implemented by the modelled ConnectivityProperties objects. *)
From Coq Require Import ZArith List Bool Arith Lia String Permutation.
From Verif Require Import IntervalModel IntervalFacts HyperModel HyperFacts HyperOps HyperDims HyperTop HyperContain
                          HyperInst PropHyperCube ConnModel ConnFacts TextModel PortProtoModel PeerModel PeerFacts PeerSetFacts
                          PolicyModel PolicyLaws PolicyFacts LayerFacts ConnAlg StdDims QueryModel QueryFacts QueryAlg ConnDict ClusterModel FWModel FWFacts.
Import ListNotations.
Local Open Scope nat_scope.

(** ConnectivityCube.__getitem__ for the peers dimensions, ConnectivityCube.py:133-145. *)
Definition peers_of_val (reg : list peer) (v : val) : option peerset := match v with VI l => peer_set_by_indices reg l | VN _ _ => None end.
(** [for cube in props: conn_cube = props.get_connectivity_cube(cube)], then the two peers dimensions of conn_cube;
    ConnectivityProperties.py:96-109. *)
Definition cube_ends (dom : dim -> val) (reg : list peer) (all : list dim) (h : hc val) : option (list (peerset * peerset)) :=
  mapM (fun k => bind (peers_of_val reg (cube_at (val_ops dom) (act_of h) k d_src)) (fun s =>
                 bind (peers_of_val reg (cube_at (val_ops dom) (act_of h) k d_dst)) (fun d => Some (s, d))))
       (iter_cubes (val_ops dom) all h).
(** The peers of a cube (unset_all_but_peers, ConnectivityCube.py:123-126, called at MinimizeFWRules.py:147). *)
Definition only_peers (dom : dim -> val) (c : dim -> val) : dim -> val :=
  fun d => if Nat.eqb d d_src || Nat.eqb d d_dst then c d else dom d.
(** The other dimensions (extract_src_dst_peers_from_cube, ConnectivityProperties.py:468-489): the protocols are dropped as well if they are
    exactly the relevant ones, MinimizeFWRules.py:134-139; without a restriction the relevant protocols are the empty set. *)
Definition relevant_protocols (dom : dim -> val) (restr : option bool) : val :=
  match restr with Some b => proto_val dom b | None => VI [] end.
Definition not_peers (dom : dim -> val) (restr : option bool) (c : dim -> val) : dim -> val :=
  fun d => if Nat.eqb d d_src || Nat.eqb d d_dst then dom d
           else if Nat.eqb d d_proto && veqb (val_ops dom) (c d_proto) (relevant_protocols dom restr) then dom d else c d.
Definition split_cube (dom : dim -> val) (all : list dim) (restr : option bool) (c : dim -> val) : hc val * hc val :=
  (make_props (val_ops dom) (dim_empty dom) all (only_peers dom c), make_props (val_ops dom) (dim_empty dom) all (not_peers dom restr c)).
Definition fw_ops (dom : dim -> val) (all : list dim) (reg : list peer) : fops (C:=hc val) :=
  let O := val_ops dom in
  FOps (cube_ends dom reg all)
       (fun x => bind (reorder_switch O all x d_src d_dst) (fun r => cube_ends dom reg (fst r) (snd r)))
       (fun x => bind (minimize O all x d_src d_dst) (fun r => cube_ends dom reg (fst r) (snd r)))
       (fun b x => cube_project dom all reg x (if b then d_src else d_dst))
       (fun restr h => map (fun k => split_cube dom all restr (cube_at O (act_of h) k)) (iter_cubes O all h)).

Section Alg.
Context (dom : dim -> val) (reg vis : list peer) (D : iset).
Context (QK : qalg_ok dom std_rest reg vis D [Ivl 0 255]).
Context (E6 : dom 6 = VN true []) (E7 : dom 7 = VN true []) (Ew : forall e u m, dom e = VN u m -> e = 6 \/ e = 7).
Let K := qa_alg _ _ _ _ _ _ QK.
Let O := val_ops dom.
Let L := val_laws dom (ok_doms _ _ _ _ _ _ K).
Let N := ok_nodup _ _ _ _ _ _ K.
Let NE : std_all <> [].
Proof. discriminate. Qed.
Notation space := (q_space dom).
Notation ok := (q_ok dom std_rest).
Let tempty : dim -> val := fun e => match dom e with VI _ => VI [] | VN _ _ => VN false [] end.
Local Opaque min_pod_index max_pod_index min_ipv6_index max_ipv6_index max_ipv4_index v4max v6min v6max.

(** ** Peers and indices *)
Lemma index_point : forall z, mem z D -> point_index reg (point_of_index reg z) = Some z.
Proof using QK.
  intros z Hz. pose proof (ok_reg _ _ _ _ _ _ K) as R. pose proof icons as (K1 & K2 & K3 & K4 & K5). pose proof consts as (Q1 & Q2 & Q3).
  pose proof (ok_D_bound _ _ _ _ _ _ K z Hz) as B. unfold point_of_index. destruct (Z.leb_spec z max_ipv4_index) as [H4|H4].
  { cbn [point_index]. unfold addr_index. destruct (Z.leb_spec z v4max); [reflexivity|lia]. }
  destruct (Z.leb_spec z max_ipv6_index) as [H6|H6].
  { cbn [point_index]. unfold addr_index. destruct (Z.leb_spec (z - min_ipv6_index + v6min) v4max); [lia|f_equal; lia]. }
  destruct (qa_exact _ _ _ _ _ _ QK z Hz) as (p & j & Hp & Ej & Ez); [lia|]. pose proof Ej as Ej0. apply peer_index_spec in Ej as [J1 J2]; [|apply R].
  replace (z - min_pod_index)%Z with j by lia. rewrite J2. destruct p as [k n|m].
  - cbn [point_index]. rewrite Ej0. cbn. f_equal. lia.
  - exfalso. destruct R as (_ & R2 & _). apply (ok_vis _ _ _ _ _ _ K) in Hp. apply R2 in Hp. discriminate.
Qed.
Lemma by_indices_exact : forall l, canonical l -> (forall z, mem z l -> mem z D) ->
  exists s, peer_set_by_indices reg l = Some s /\ pok vis s /\ forall x, pt_in x s <-> exists z, mem z l /\ point_of_index reg z = x.
Proof using QK.
  intros l C M. destruct (by_indices_vis _ _ _ _ _ _ QK l C M) as (s & E & P & H). exists s. split; auto. split; auto. intros x. split.
  - intros Hx. assert (An : anywhere vis x).
    { destruct x as [k n|y]; [left; exact (proj2 P k n Hx)|]. right. destruct Hx as (m & Hm & My). exact (proj2 (proj1 P m Hm) y My). }
    destruct (point_D _ _ _ _ _ _ QK x An) as (z & Hz & Ez). exists z. split; auto.
    assert (X : exists s', peer_set_by_indices reg l = Some s' /\ forall x, (match x with PA y => vpos y | _ => True end) -> (pt_in x s' <-> exists z, mem z l /\ point_index reg x = Some z)).
    { assert (Zs : forall z, mem z l -> zone_ok reg (Ivl z z)).
      { intros z0 Hz0. apply M in Hz0. pose proof (ok_D_bound _ _ _ _ _ _ K z0 Hz0) as B. pose proof icons as (K1 & K2 & K3 & K4 & K5). unfold zone_ok. cbn [lo hi].
        destruct B as [B|[B|B]]; [left; lia|right; left; lia|]. right; right. destruct (qa_exact _ _ _ _ _ _ QK z0 Hz0) as (p & j & Hp & Ej & E0); [lia|].
        apply peer_index_spec in Ej as [J1 J2]; [|apply (ok_reg _ _ _ _ _ _ K)]. assert (Hn : nth_error reg (Z.to_nat j) <> None) by congruence. apply nth_error_Some in Hn. lia. }
      pose proof icons as (K1 & K2 & K3 & K4 & K5). pose proof consts as (Q1 & Q2 & Q3). pose proof (ok_reg _ _ _ _ _ _ K) as R.
      destruct (by_indices_ok reg l (ok_reg _ _ _ _ _ _ K) C) as (s' & E' & _ & _ & H'); [|exists s'; auto].
      intros i Hi. pose proof (canonical_in _ _ C Hi) as Li.
      assert (X1 : zone_ok reg (Ivl (lo i) (lo i))) by (apply Zs; exists i; split; [auto|lia]).
      assert (X2 : zone_ok reg (Ivl (hi i) (hi i))) by (apply Zs; exists i; split; [auto|lia]).
      assert (M4 : ~ (lo i <= max_ipv4_index + 1 <= hi i)%Z).
      { intros Hm. assert (Zm : zone_ok reg (Ivl (max_ipv4_index + 1) (max_ipv4_index + 1))) by (apply Zs; exists i; auto). unfold zone_ok in Zm. cbn [lo hi] in Zm. lia. }
      assert (M6 : ~ (lo i <= max_ipv6_index + 1 <= hi i)%Z).
      { intros Hm. assert (Zm : zone_ok reg (Ivl (max_ipv6_index + 1) (max_ipv6_index + 1))) by (apply Zs; exists i; auto). unfold zone_ok in Zm. cbn [lo hi] in Zm. lia. }
      unfold zone_ok in *. cbn [lo hi] in *. lia. }
    destruct X as (s' & E' & H'). assert (s' = s) by congruence. subst s'.
    apply H' in Hx; [|destruct x as [k n|y]; [exact I|destruct An as [[]|An]; exact An]]. destruct Hx as (z' & Hz' & Ez'). rewrite <- Ez in Ez'. rewrite (index_point z Hz) in Ez'. congruence.
  - intros (z & Hz & <-). apply H; auto.
Qed.
Lemma peers_of_valid : forall v, val_valid dom d_src v \/ val_valid dom d_dst v ->
  exists s, peers_of_val reg v = Some s /\ pok vis s /\ forall x, pt_in x s <-> exists z, val_mem z v /\ point_of_index reg z = x.
Proof using QK.
  intros v V. assert (V' : exists l, v = VI l /\ canonical l /\ forall z, mem z l -> mem z D).
  { destruct V as [V|V]; destruct V as (V1 & V2 & V3); [rewrite (ok_src _ _ _ _ _ _ K) in V2, V3|rewrite (ok_dst _ _ _ _ _ _ K) in V2, V3];
      (destruct v as [l|c l]; [exists l; auto|destruct V2]). }
  destruct V' as (l & -> & C & M). cbn [peers_of_val val_mem]. apply by_indices_exact; auto.
Qed.

(** ** Cubes *)
Lemma cube_out : forall ds k d, ~ In d ds -> cube_at O ds k d = dom d.
Proof using.
  intros ds k d H. unfold cube_at. pose proof (find_none ds k d H) as Q.
  match goal with |- match ?f with _ => _ end = _ => replace f with (@None (nat * val)) by (symmetry; exact Q) end. reflexivity.
Qed.
Lemma obj_cubes : forall all h, NoDup all -> all <> [] -> obj O val_mem (val_valid dom) false all h ->
  (forall pt, space pt -> (a_mem pt h <-> exists k, In k (iter_cubes O all h) /\ forall d, val_mem (pt d) (cube_at O (act_of h) k d))) /\
  (forall k, In k (iter_cubes O all h) -> forall d, val_valid dom d (cube_at O (act_of h) k d) /\ exists x, val_mem x (cube_at O (act_of h) k d)).
Proof using QK.
  intros all h Nd NEa Oh. destruct (is_all h) eqn:I.
  - assert (E : h = hall (cls_of h)).
    { destruct (obj_cases _ _ _ _ _ _ Oh) as [E|[(_ & I' & _)|Pr]]; auto; [congruence|]. destruct (proper_hbool _ _ _ _ _ _ Pr) as [_ X]. congruence. }
    assert (Ea : act_of h = []) by (rewrite E; reflexivity).
    assert (Dm : forall k d, cube_at O (act_of h) k d = dom d) by (intros k d; rewrite Ea; reflexivity).
    split.
    + intros pt Sp. split.
      * intros _. exists (map (vdom O) all). split; [unfold iter_cubes; rewrite I; left; reflexivity|]. intros d. rewrite Dm. apply Sp.
      * intros _. rewrite E. exact Logic.I.
    + intros k _ d. rewrite Dm. split; [apply (L_dom _ _ _ L)|apply (L_dom_ne _ _ _ L)].
  - destruct (iter_cube O val_mem (val_valid dom) L all Nd false h Oh I) as (Na & _ & _ & I1 & I2 & _).
    assert (Dm : forall k d, ~ In d (act_of h) -> cube_at O (act_of h) k d = dom d) by (intros k d Hd; apply cube_out; auto).
    split.
    + intros pt Sp. refine (iff_trans (I1 pt Sp) _). split; intros (k & Hk & M); exists k; (split; [exact Hk|]).
      * intros d. destruct (in_dec Nat.eq_dec d (act_of h)) as [Hd|Hd]; [apply M; auto|rewrite Dm by auto; apply Sp].
      * intros d _. apply M.
    + intros k Hk d. destruct (in_dec Nat.eq_dec d (act_of h)) as [Hd|Hd]; [apply (I2 k Hk); auto|]. rewrite Dm by auto. split; [apply (L_dom _ _ _ L)|apply (L_dom_ne _ _ _ L)].
Qed.
Lemma valid_space : forall c, (forall d, val_valid dom d (c d)) -> forall pt, (forall d, val_mem (pt d) (c d)) -> space pt.
Proof using QK. intros c V pt H d. apply (L_sub_dom _ _ _ L d (c d)); auto. Qed.
(** A point of a cube with given peers. *)
Lemma cube_point_at : forall c, (forall d, val_valid dom d (c d) /\ exists x, val_mem x (c d)) -> forall zs zd, val_mem zs (c d_src) -> val_mem zd (c d_dst) ->
  exists q, space q /\ q d_src = zs /\ q d_dst = zd /\ forall d, val_mem (q d) (c d).
Proof using QK.
  intros c V zs zd Hs Hd. pose (q := fun e => if Nat.eqb e d_src then zs else if Nat.eqb e d_dst then zd else vrep O (c e)).
  assert (M : forall d, val_mem (q d) (c d)).
  { intros e. unfold q. destruct (Nat.eqb_spec e d_src) as [->|]; [exact Hs|]. destruct (Nat.eqb_spec e d_dst) as [->|]; [exact Hd|]. destruct (V e). apply (L_rep _ _ _ L e); auto. }
  exists q. split; [apply (valid_space c); auto; intros d; apply V|]. split; [reflexivity|]. split; [reflexivity|exact M].
Qed.
Lemma cube_ends_spec : forall all h x, NoDup all -> all <> [] -> obj O val_mem (val_valid dom) false all h -> (forall pt, space pt -> (a_mem pt h <-> a_mem pt x)) ->
  exists l, cube_ends dom reg all h = Some l /\ cubes_of (q_src reg) (q_dst reg) space a_mem vis x l.
Proof using QK.
  intros all h x Nd NEa Oh E. destruct (obj_cubes all h Nd NEa Oh) as [M V]. unfold cube_ends. fold O.
  assert (G : forall ks, (forall k, In k ks -> In k (iter_cubes O all h)) -> exists l,
    mapM (fun k => bind (peers_of_val reg (cube_at O (act_of h) k d_src)) (fun s => bind (peers_of_val reg (cube_at O (act_of h) k d_dst)) (fun d => Some (s, d)))) ks = Some l /\
    (forall k, In k ks -> exists e, In e l /\ (forall y, pt_in y (fst e) <-> exists z, val_mem z (cube_at O (act_of h) k d_src) /\ point_of_index reg z = y) /\
       (forall y, pt_in y (snd e) <-> exists z, val_mem z (cube_at O (act_of h) k d_dst) /\ point_of_index reg z = y)) /\
    (forall e, In e l -> pok vis (fst e) /\ pok vis (snd e) /\ exists k, In k ks /\
       (forall y, pt_in y (fst e) <-> exists z, val_mem z (cube_at O (act_of h) k d_src) /\ point_of_index reg z = y) /\
       (forall y, pt_in y (snd e) <-> exists z, val_mem z (cube_at O (act_of h) k d_dst) /\ point_of_index reg z = y))).
  { induction ks as [|k ks IH]; intros Hks; cbn [mapM]; [exists []; split; auto; split; [intros k []|intros e []]|].
    destruct IH as (l & El & F1 & F2); [intros k' H; apply Hks; right; auto|].
    destruct (peers_of_valid (cube_at O (act_of h) k d_src)) as (s & Es & Ps & Ms); [left; apply V; apply Hks; left; auto|].
    destruct (peers_of_valid (cube_at O (act_of h) k d_dst)) as (d & Ed & Pd & Md); [right; apply V; apply Hks; left; auto|].
    rewrite Es, Ed. cbn [bind]. rewrite El. cbn [bind]. eexists. split; [reflexivity|]. split.
    - intros k' [<-|Hk]; [exists (s, d); split; [left; auto|]; split; auto|]. destruct (F1 k' Hk) as (e & He & R). exists e. split; [right; auto|exact R].
    - intros e [<-|He]; [cbn [fst snd]; split; auto; split; auto; exists k; split; [left; auto|]; split; auto|]. destruct (F2 e He) as (P1 & P2 & k' & Hk & R). split; auto. split; auto. exists k'. split; [right; auto|exact R]. }
  destruct (G _ (fun k H => H)) as (l & El & F1 & F2). exists l. split; [exact El|]. split; [|split].
  - intros e He. destruct (F2 e He) as (P1 & P2 & k & Hk & R1 & R2). split; auto. split; auto. split.
    + destruct (V k Hk d_src) as [_ (z & Hz)]. exists (point_of_index reg z). apply R1. exists z; auto.
    + destruct (V k Hk d_dst) as [_ (z & Hz)]. exists (point_of_index reg z). apply R2. exists z; auto.
  - intros pt Sp Mp. apply E in Mp; auto. apply M in Mp; auto. destruct Mp as (k & Hk & Mk). destruct (F1 k Hk) as (e & He & R1 & R2). exists e. split; auto.
    split; [apply R1; exists (pt d_src)|apply R2; exists (pt d_dst)]; split; auto.
  - intros Po e pt He Sp [H1 H2]. destruct (F2 e He) as (P1 & P2 & k & Hk & R1 & R2).
    apply R1 in H1 as (zs & Hs & Ezs). apply R2 in H2 as (zd & Hd & Ezd).
    destruct (cube_point_at (cube_at O (act_of h) k) (V k Hk) zs zd Hs Hd) as (q & Sq & Q1 & Q2 & Mq).
    apply (Po q pt Sq Sp).
    + unfold q_src, a_src. rewrite Q1. exact Ezs.
    + unfold q_dst, a_dst. rewrite Q2. exact Ezd.
    + apply E; auto. apply M; auto. exists k. auto.
Qed.
Lemma project_exact : forall x d, a_ok dom std_rest x -> hbool x = true -> dom d = VI D -> pok vis (cube_project dom std_all reg x d) /\
  forall y, pt_in y (cube_project dom std_all reg x d) <-> exists p, space p /\ a_mem p x /\ point_of_index reg (p d) = y.
Proof using QK.
  intros x d Hx B Ed. unfold cube_project. fold O.
  assert (Ve : val_valid dom d (dim_empty dom d)).
  { unfold dim_empty. rewrite Ed. split; [exact I|]. rewrite Ed. split; [exact I|]. intros z Hz. apply mem_nil in Hz. destruct Hz. }
  assert (Ne : forall z, ~ val_mem z (dim_empty dom d)) by (intros z; unfold dim_empty; rewrite Ed; cbn [val_mem]; rewrite mem_nil; tauto).
  destruct (project_spec O val_mem (val_valid dom) L std_all N false x d (dim_empty dom) Hx B Ve Ne) as [(V1 & V2 & V3) M].
  rewrite Ed in V2, V3. destruct (project O (dim_empty dom) std_all x d) as [l|c l]; [|destruct V2].
  destruct (by_indices_exact l V1 V3) as (s & -> & P & H). split; auto. intros y. rewrite H. split.
  - intros (z & Hz & <-). apply (M z) in Hz as (p & Sp & Mp & <-). exists p. auto.
  - intros (p & Sp & Mp & <-). exists (p d). split; auto. apply (M (p d)). exists p. auto.
Qed.

(** ** Connections made from cubes *)
Lemma loose : forall c, (forall d, val_valid dom d (c d)) -> (forall d, d = 6 \/ d = 7 -> exists x, val_mem x (c d)) ->
  let h := make_props O (dim_empty dom) std_all c in
  ok h /\ (forall pt, space pt -> a_mem pt h -> forall d, In d std_all -> val_mem (pt d) (c d)) /\
  (forall pt, space pt -> pt 6 <> 0%Z -> pt 7 <> 0%Z -> (forall d, In d std_all -> val_mem (pt d) (c d)) -> a_mem pt h) /\
  (words_ok dom c -> forall pt, space pt -> (forall d, In d std_all -> val_mem (pt d) (c d)) -> a_mem pt h).
Proof using QK E6 E7 Ew.
  intros c V I h.
  assert (Ed : forall e, e = 6 \/ e = 7 -> dom e = VN true []) by (intros e [->| ->]; auto).
  assert (V0 : forall e, e = 6 \/ e = 7 -> val_valid dom e (VN false [Ivl 0 0])).
  { intros e He. unfold val_valid. rewrite (Ed e He). cbn. split; [lia|]. split; [exact Logic.I|]. intros z _. rewrite mem_nil. tauto. }
  assert (Cls : a_ok dom std_rest h -> cls_of h = Conn).
  { intros Oh. destruct (obj_node dom std_rest h Oh) as (c0 & a & ls & E). unfold h, make_props in *. destruct (ccube_is_empty _ _ _ _); [reflexivity|].
    destruct (ccube_ordered _ _ _) as [|q qs]; [reflexivity|]. unfold add_cube in *. destruct (forallb _ _); [|reflexivity].
    destruct (h_or _ _ _ _); cbn [override cls_of hempty] in *; try discriminate. reflexivity. }
  assert (Dc : (exists e, (e = 6 \/ e = 7) /\ veqb O (c e) (VN false [Ivl 0 0]) = true) \/ words_ok dom c).
  { assert (G : forall e, e = 6 \/ e = 7 -> veqb O (c e) (VN false [Ivl 0 0]) = true \/ exists x, x <> 0%Z /\ val_mem x (c e)).
    { intros e He. destruct (veqb O (c e) (VN false [Ivl 0 0])) eqn:Q; auto. right. specialize (V0 e He).
      assert (VS : val_valid dom e (vsub O (c e) (VN false [Ivl 0 0]))) by (apply (L_sub_valid _ _ _ L e); auto).
      destruct (vbool O (vsub O (c e) (VN false [Ivl 0 0]))) eqn:B.
      - apply (L_bool _ _ _ L e _ VS) in B as (x & Hx). apply (L_sub _ _ _ L e _ _ x (V e) V0) in Hx as [H1 H2]. exists x. split; auto. intros ->. apply H2. cbn. rewrite mem_cons. cbn. lia.
      - exfalso. assert (T : veqb O (c e) (VN false [Ivl 0 0]) = true); [|congruence].
        assert (Z : forall x, val_mem x (c e) -> x = 0%Z).
        { intros x Hx. destruct (Z.eq_dec x 0) as [|Nx]; auto. exfalso. assert (X : vbool O (vsub O (c e) (VN false [Ivl 0 0])) = true); [|congruence].
          apply (L_bool _ _ _ L e _ VS). exists x. apply (L_sub _ _ _ L e _ _ x (V e) V0). split; auto. cbn. rewrite mem_cons, mem_nil. cbn. lia. }
        apply (L_eqb _ _ _ L e _ _ (V e) V0). intros x. split.
        + intros Hx. rewrite (Z x Hx). cbn. rewrite mem_cons. cbn. lia.
        + intros Hx. cbn in Hx. rewrite mem_cons, mem_nil in Hx. cbn in Hx. assert (x = 0%Z) by lia. subst x. destruct (I e He) as (y & Hy). rewrite <- (Z y Hy). exact Hy. }
    destruct (G 6 (or_introl eq_refl)) as [G6|G6]; [left; exists 6; auto|]. destruct (G 7 (or_intror eq_refl)) as [G7|G7]; [left; exists 7; auto|].
    right. intros e u m Ee. split; auto. destruct (Ew e u m Ee) as [->| ->]; auto. }
  assert (Wc : words_ok dom c -> ok h /\ forall pt, space pt -> (a_mem pt h <-> forall d, In d std_all -> val_mem (pt d) (c d))).
  { intros Wk. assert (Eh : h = make_props O tempty std_all c) by exact (words_empty dom reg vis D K c Wk).
    destruct (make_props_spec O val_mem (val_valid dom) L std_all tempty c N NE (fun d _ => V d) (fun d _ => tempty_ok dom d)) as [A B].
    rewrite <- Eh in A, B. split; [split; [exact A|exact (Cls A)]|exact B]. }
  destruct Dc as [(e & He & Q)|Wk].
  - assert (Eh : h = hempty Conn std_all).
    { unfold h, make_props. assert (X : ccube_is_empty O (dim_empty dom) std_all c = true); [|rewrite X; reflexivity].
      apply existsb_exists. exists e. split; [destruct He as [->| ->]; unfold std_all; cbn [In]; tauto|]. unfold dim_empty. rewrite (Ed e He). exact Q. }
    assert (Ok : a_ok dom std_rest h) by (rewrite Eh; apply hempty_obj; [discriminate|discriminate]). split; [split; auto|].
    assert (Nm : forall pt, ~ a_mem pt h). { intros pt H. rewrite Eh in H. revert H. apply empty_denot; discriminate. }
    assert (Z : forall pt, val_mem (pt e) (c e) -> pt e = 0%Z).
    { intros pt M. pose proof (proj1 (proj1 (L_eqb _ _ _ L e _ _ (V e) (V0 e He)) Q (pt e)) M) as M'. cbn in M'. rewrite mem_cons, mem_nil in M'. cbn in M'. lia. }
    assert (He' : In e std_all) by (destruct He as [->| ->]; unfold std_all; cbn [In]; tauto).
    split; [intros pt _ H; destruct (Nm pt H)|]. split; [|intros Wk; apply (Wc Wk)]. intros pt _ N6 N7 H. exfalso. pose proof (Z pt (H e He')) as Z0. destruct He as [->| ->]; auto.
  - destruct (Wc Wk) as [A B]. split; auto. split; [intros pt Sp H; exact (proj1 (B pt Sp) H)|]. split; [intros pt Sp _ _ H; exact (proj2 (B pt Sp) H)|]. intros _ pt Sp H. exact (proj2 (B pt Sp) H).
Qed.
Lemma full_words : forall c, (c 6 = dom 6) -> (c 7 = dom 7) -> words_ok dom c.
Proof using E6 E7 Ew.
  intros c H6 H7 e u m Ee. assert (X : c e = VN true [] /\ dom e = VN true []) by (destruct (Ew e u m Ee) as [->| ->]; [rewrite H6|rewrite H7]; auto).
  destruct X as [-> Ed]. split; [|exists 1%Z; split; [lia|cbn; rewrite mem_nil; lia]]. unfold val_valid. rewrite Ed. cbn. split; [exact I|]. split; [exact I|]. intros z Hz. exact Hz.
Qed.

(** ** The laws *)
Definition f_nice (pt : dim -> Z) : Prop := pt 6 <> 0%Z /\ pt 7 <> 0%Z.
Lemma proto_val_mem : forall b pt, space pt -> (val_mem (pt d_proto) (proto_val dom b) <-> a_tcp pt = b).
Proof using QK.
  intros b pt Sp. specialize (Sp d_proto). cbn in Sp. unfold proto_val, a_tcp. destruct b.
  - cbn [val_mem]. rewrite mem_cons, mem_nil. cbn [lo hi]. rewrite Z.eqb_eq. lia.
  - assert (Vd : val_valid dom d_proto (dom d_proto)) by apply (L_dom _ _ _ L).
    assert (Vt : val_valid dom d_proto (VI [Ivl tcp_number tcp_number])).
    { unfold val_valid. rewrite (ok_protos _ _ _ _ _ _ K). cbn. split; [unfold tcp_number; lia|]. split; [exact I|]. intros z Hz. rewrite mem_cons, mem_nil in Hz. cbn in Hz.
      assert (z = tcp_number) by lia. subst z. apply (ok_tcp _ _ _ _ _ _ K). }
    refine (iff_trans (L_sub _ _ _ L d_proto (dom d_proto) (VI [Ivl tcp_number tcp_number]) (pt d_proto) Vd Vt) _). cbn [val_mem]. rewrite mem_cons, mem_nil. cbn [lo hi]. rewrite Z.eqb_neq.
    split; [intros [_ H]; lia|intros H; split; [exact Sp|lia]].
Qed.
Lemma proto_val_valid : forall b, val_valid dom d_proto (proto_val dom b).
Proof using QK.
  intros b. assert (Vd : val_valid dom d_proto (dom d_proto)) by apply (L_dom _ _ _ L).
  assert (Vt : val_valid dom d_proto (VI [Ivl tcp_number tcp_number])).
  { unfold val_valid. rewrite (ok_protos _ _ _ _ _ _ K). cbn. split; [unfold tcp_number; lia|]. split; [exact I|]. intros z Hz. rewrite mem_cons, mem_nil in Hz. cbn in Hz.
    assert (z = tcp_number) by lia. subst z. apply (ok_tcp _ _ _ _ _ _ K). }
  unfold proto_val. destruct b; [exact Vt|]. apply (L_sub_valid _ _ _ L d_proto); auto.
Qed.
Lemma relevant_valid : forall r, val_valid dom d_proto (relevant_protocols dom r).
Proof using QK.
  intros [b|]; [apply proto_val_valid|]. cbn [relevant_protocols]. unfold val_valid. rewrite (ok_protos _ _ _ _ _ _ K). cbn. split; [exact I|]. split; [exact I|]. intros z Hz. apply mem_nil in Hz. tauto.
Qed.
Lemma in_std : In d_src std_all /\ In d_dst std_all /\ In d_proto std_all.
Proof using. unfold std_all, d_src, d_dst, d_proto. cbn [In]. auto 6. Qed.
Section Split.
Context (c : dim -> val) (V : forall d, val_valid dom d (c d) /\ exists x, val_mem x (c d)).
Lemma split_valid : forall restr d, (val_valid dom d (only_peers dom c d) /\ exists x, val_mem x (only_peers dom c d)) /\ (val_valid dom d (not_peers dom restr c d) /\ exists x, val_mem x (not_peers dom restr c d)).
Proof using QK V.
  intros restr d. assert (Dm : val_valid dom d (dom d) /\ exists x, val_mem x (dom d)) by (split; [apply (L_dom _ _ _ L)|apply (L_dom_ne _ _ _ L)]).
  unfold only_peers, not_peers. destruct (Nat.eqb d d_src || Nat.eqb d d_dst); [split; auto|]. destruct (Nat.eqb d d_proto && _); split; auto.
Qed.
Lemma split_spec : forall restr, let s := split_cube dom std_all restr c in
  ok (fst s) /\ ok (snd s) /\
  (forall pt, space pt -> (a_mem pt (fst s) <-> val_mem (pt d_src) (c d_src) /\ val_mem (pt d_dst) (c d_dst))) /\
  (forall pt, space pt -> opt (eq (a_tcp pt)) restr -> a_mem pt (fst s) -> a_mem pt (snd s) -> forall d, In d std_all -> val_mem (pt d) (c d)) /\
  (forall pt, space pt -> f_nice pt -> (forall d, val_mem (pt d) (c d)) -> a_mem pt (fst s) /\ a_mem pt (snd s)).
Proof using QK E6 E7 Ew V.
  intros restr s. unfold s, split_cube. cbn [fst snd]. fold O.
  pose proof (split_valid restr) as SV.
  destruct (loose (only_peers dom c)) as (A1 & A2 & _ & A4); [intros d; apply SV|intros d _; apply SV|].
  destruct (loose (not_peers dom restr c)) as (B1 & B2 & B3 & _); [intros d; apply SV|intros d _; apply SV|].
  destruct in_std as (I0 & I1 & I2).
  assert (Mp : forall pt, space pt -> (a_mem pt (make_props O (dim_empty dom) std_all (only_peers dom c)) <-> val_mem (pt d_src) (c d_src) /\ val_mem (pt d_dst) (c d_dst))).
  { intros pt Sp. split.
    - intros M. pose proof (A2 pt Sp M) as H. split; [exact (H d_src I0)|exact (H d_dst I1)].
    - intros [M1 M2]. apply A4; auto; [apply full_words; reflexivity|]. intros d _. unfold only_peers.
      destruct (Nat.eqb_spec d d_src) as [->|]; [exact M1|]. destruct (Nat.eqb_spec d d_dst) as [->|]; [exact M2|]. cbn [orb]. apply Sp. }
  split; auto. split; auto. split; auto. split.
  - intros pt Sp Ht M1 M2 d Hd. apply (Mp pt Sp) in M1 as [M1 M1']. pose proof (B2 pt Sp M2 d Hd) as M. unfold not_peers in M.
    destruct (Nat.eqb_spec d d_src) as [->|]; [exact M1|]. destruct (Nat.eqb_spec d d_dst) as [->|]; [exact M1'|]. cbn [orb] in M.
    destruct (Nat.eqb_spec d d_proto) as [->|]; [|exact M]. cbn [andb] in M. destruct (veqb O (c d_proto) (relevant_protocols dom restr)) eqn:Q; [|fold O in M; rewrite Q in M; exact M].
    apply (proj1 (L_eqb _ _ _ L d_proto _ _ (proj1 (V d_proto)) (relevant_valid restr)) Q). destruct restr as [b|]; cbn [relevant_protocols].
    + apply proto_val_mem; auto.
    + exfalso. destruct (V d_proto) as [_ (z & Hz)]. apply (proj1 (L_eqb _ _ _ L d_proto _ _ (proj1 (V d_proto)) (relevant_valid None)) Q) in Hz. cbn in Hz. apply mem_nil in Hz. exact Hz.
  - intros pt Sp [N6 N7] M. split; [apply (Mp pt Sp); auto|]. apply B3; auto. intros d _. unfold not_peers.
    destruct (Nat.eqb d d_src || Nat.eqb d d_dst); [apply Sp|]. destruct (Nat.eqb d d_proto && _); [apply Sp|apply M].
Qed.
End Split.
Local Notation A := (cube_ops dom std_all reg).
Local Notation QQ := (cube_qops dom std_all reg).
Theorem fw_laws : flaws QQ (fw_ops dom std_all reg) (q_src reg) (q_dst reg) a_tcp space a_mem ok vis f_nice.
Proof using QK E6 E7 Ew.
  assert (Bx : forall x, ok x -> some_of space a_mem x -> hbool x = true).
  { intros x [Hx _] H. apply (hbool_spec O val_mem (val_valid dom) L false std_all x N Hx). exact H. }
  assert (Pr : forall (b : bool) x, ok x -> some_of space a_mem x -> pok vis (cube_project dom std_all reg x (if b then d_src else d_dst)) /\
    forall y, pt_in y (cube_project dom std_all reg x (if b then d_src else d_dst)) <-> exists p, space p /\ a_mem p x /\ side (q_src reg) (q_dst reg) b p = y).
  { intros b x Ox S. destruct (project_exact x (if b then d_src else d_dst) (proj1 Ox) (Bx x Ox S)) as [P M]; [destruct b; [apply (ok_src _ _ _ _ _ _ K)|apply (ok_dst _ _ _ _ _ _ K)]|].
    split; auto. intros y. refine (iff_trans (M y) _). split; intros (p & Sp & Mp & E); exists p; (split; [exact Sp|]); (split; [exact Mp|]); destruct b; exact E. }
  constructor.
  - destruct (qa_vis _ _ _ _ _ _ QK) as ([k n|l] & Hp); [exists k, n; exact Hp|]. exfalso. destruct (ok_reg _ _ _ _ _ _ K) as (_ & R2 & _). apply (ok_vis _ _ _ _ _ _ K) in Hp. apply R2 in Hp. discriminate.
  - intros x [Hx _] Na. cbn [fw_ops f_cubes]. apply cube_ends_spec; auto. intros pt _. tauto.
  - intros x [Hx _] Na. cbn [fw_ops f_switched].
    assert (Ia : is_all x = false) by exact (QueryAlg.not_all _ _ _ _ _ _ QK x Hx Na). destruct in_std as (I0 & I1 & _).
    destruct (reorder_switch_spec O val_mem (val_valid dom) L std_all x d_src d_dst N I0 I1 Hx Ia) as (na & h' & E & Pm & Oh & M). fold O. rewrite E. cbn [bind fst snd].
    apply cube_ends_spec; auto.
    + apply (Permutation_NoDup (Permutation_sym Pm)). exact N.
    + intros ->. apply Permutation_nil in Pm. discriminate.
  - intros x [Hx _] Na. cbn [fw_ops f_minimized].
    assert (Ia : is_all x = false) by exact (QueryAlg.not_all _ _ _ _ _ _ QK x Hx Na). destruct in_std as (I0 & I1 & _).
    destruct (reorder_switch_spec O val_mem (val_valid dom) L std_all x d_src d_dst N I0 I1 Hx Ia) as (na & h' & E & Pm & Oh & M). fold O. unfold minimize. rewrite E.
    destruct (hlen x <=? hlen h'); cbn [bind fst snd].
    + apply cube_ends_spec; auto. intros pt _. tauto.
    + apply cube_ends_spec; auto.
      * apply (Permutation_NoDup (Permutation_sym Pm)). exact N.
      * intros ->. apply Permutation_nil in Pm. discriminate.
  - exact Pr.
  - intros x y Ox S Hy. cbn [cube_qops q_peers] in Hy. apply pt_in_union in Hy as [Hy|Hy].
    + apply (proj2 (Pr true x Ox S)) in Hy as (p & Sp & Mp & E). exists p, true. auto.
    + apply (proj2 (Pr false x Ox S)) in Hy as (p & Sp & Mp & E). exists p, false. auto.
  - intros r h p q [Hh _] H. cbn [fw_ops f_split] in H. apply in_map_iff in H as (k & E & Hk). destruct (obj_cubes std_all h N NE Hh) as [M V]. specialize (V k Hk).
    destruct (split_spec _ V r) as (S1 & S2 & S3 & S4 & S5). unfold split_cube in E. injection E as <- <-. unfold split_cube in S1, S2, S3, S4, S5. cbn [fst snd] in *.
    assert (Po : ponly (q_src reg) (q_dst reg) space a_mem (make_props O (dim_empty dom) std_all (only_peers dom (cube_at O (act_of h) k)))).
    { intros p q Sp Sq Q1 Q2 Mp. apply (S3 q Sq). apply (S3 p Sp) in Mp as [M1 M2].
      destruct (space_D _ _ _ _ _ _ QK p Sp) as [D1 D2]. destruct (space_D _ _ _ _ _ _ QK q Sq) as [D3 D4]. unfold q_src, a_src in Q1. unfold q_dst, a_dst in Q2.
      assert (X1 : p d_src = q d_src) by (pose proof (index_point _ D1) as X; rewrite Q1, (index_point _ D3) in X; congruence).
      assert (X2 : p d_dst = q d_dst) by (pose proof (index_point _ D2) as X; rewrite Q2, (index_point _ D4) in X; congruence).
      rewrite <- X1, <- X2. auto. }
    split; auto. split; auto. split; auto. split.
    + destruct (V d_src) as [_ (zs & Hs)]. destruct (V d_dst) as [_ (zd & Hd)]. destruct (cube_point_at _ V zs zd Hs Hd) as (q & Sq & Q1 & Q2 & Mq). exists q. split; auto. apply (S3 q Sq). auto.
    + intros pt Sp Mp. apply (S3 pt Sp) in Mp as [M1 M2]. destruct (cube_point_at _ V (pt d_src) (pt d_dst) M1 M2) as (q & Sq & Q1 & Q2 & Mq). exists q. split; auto.
      split; [apply M; auto; exists k; auto|]. unfold q_src, a_src, q_dst, a_dst. rewrite Q1, Q2. auto.
  - intros r h p q pt [Hh _] H Sp Ht M1 M2. cbn [fw_ops f_split] in H. apply in_map_iff in H as (k & E & Hk). destruct (obj_cubes std_all h N NE Hh) as [M V]. specialize (V k Hk).
    destruct (split_spec _ V r) as (S1 & S2 & S3 & S4 & S5). unfold split_cube in E. injection E as <- <-. unfold split_cube in S4. cbn [fst snd] in *.
    pose proof (S4 pt Sp Ht M1 M2) as H. apply M; auto. exists k. split; auto. intros d. destruct (in_dec Nat.eq_dec d std_all) as [Hd|Hd]; [apply H; auto|].
    rewrite cube_out; [apply Sp|]. intros Ha. apply Hd. destruct (is_all h) eqn:Ia.
    + assert (E : h = hall (cls_of h)).
      { destruct (obj_cases _ _ _ _ _ _ Hh) as [E|[(_ & I' & _)|Pp]]; auto; [congruence|]. destruct (proper_hbool _ _ _ _ _ _ Pp) as [_ X]. congruence. }
      rewrite E in Ha. destruct Ha.
    + destruct (iter_cube O val_mem (val_valid dom) L std_all N false h Hh Ia) as (_ & Sa & _). apply (subseq_in _ _ Sa). exact Ha.
  - intros r h pt [Hh _] Sp Nc Mp. destruct (obj_cubes std_all h N NE Hh) as [M V]. apply M in Mp as (k & Hk & Mk); auto. specialize (V k Hk).
    destruct (split_spec _ V r) as (S1 & S2 & S3 & S4 & S5). destruct (S5 pt Sp Nc Mk) as [M1 M2].
    exists (fst (split_cube dom std_all r (cube_at O (act_of h) k))), (snd (split_cube dom std_all r (cube_at O (act_of h) k))). split; [|auto].
    cbn [fw_ops f_split]. apply in_map_iff. exists k. split; [|exact Hk]. reflexivity.
Qed.
End Alg.
