(** * C75, C76: the explanations of connectivity. *)
From Coq Require Import ZArith List Bool Arith Lia String Ascii Sorted.
From Verif Require Import MinDfaModel ConnTextModel IntervalModel IntervalFacts HyperModel HyperFacts HyperTop HyperInst PropHyperCube ConnModel ConnFacts TextModel PortProtoModel GraphModel GraphFacts
                          PeerModel PeerFacts PeerSetFacts PolicyModel PolicyLaws PolicyFacts LayerFacts OrderFacts ConnAlg StdDims PropLayers QueryModel QueryFacts QueryAlg QuerySpecs QueryOne
                          YamlModel ClusterModel FWModel FWFacts FWAlg FWLabels PropFW MapModel MapFacts CalicoSelectorSets PropQueries PropMap ExplModel ExplFacts ExplLayers ExplRun.
Import ListNotations.
Local Open Scope string_scope.
Local Open Scope list_scope.
Local Open Scope nat_scope.

(** ** The peers of the cubes of a connection set *)
Section Ends.
Context (dom : dim -> val) (reg vis : list peer) (D : iset).
Context (QK : qalg_ok dom std_rest reg vis D [Ivl 0 255]).
Let O := val_ops dom.
Let K := qa_alg _ _ _ _ _ _ QK.
Lemma cube_ends_law : ends_law (q_src reg) (q_dst reg) (q_space dom) a_mem (q_ok dom std_rest) vis (cube_ends dom reg std_all).
Proof using QK.
  intros x [Ox _]. assert (Nd : NoDup std_all) by exact (ok_nodup _ _ _ _ _ _ K). assert (NE : std_all <> []) by discriminate.
  destruct (obj_cubes dom reg vis D QK std_all x Nd NE Ox) as [M V]. unfold cube_ends.
  assert (P : forall k, In k (iter_cubes O std_all x) -> exists s d,
     peers_of_val reg (cube_at O (act_of x) k d_src) = Some s /\ peers_of_val reg (cube_at O (act_of x) k d_dst) = Some d /\ pok vis s /\ pok vis d /\
     (forall y, pt_in y s <-> exists z, val_mem z (cube_at O (act_of x) k d_src) /\ point_of_index reg z = y) /\
     (forall y, pt_in y d <-> exists z, val_mem z (cube_at O (act_of x) k d_dst) /\ point_of_index reg z = y)).
  { intros k Hk. destruct (peers_of_valid dom reg vis D QK (cube_at O (act_of x) k d_src)) as (s & Es & Ps & Ms); [left; apply V; exact Hk|].
    destruct (peers_of_valid dom reg vis D QK (cube_at O (act_of x) k d_dst)) as (d & Ed & Pd & Md); [right; apply V; exact Hk|]. exists s, d. auto 10. }
  assert (G : forall ks, (forall k, In k ks -> In k (iter_cubes O std_all x)) -> exists l,
    mapM (fun k => bind (peers_of_val reg (cube_at O (act_of x) k d_src)) (fun s => bind (peers_of_val reg (cube_at O (act_of x) k d_dst)) (fun d => Some (s, d)))) ks = Some l /\
    (forall k, In k ks -> exists s d, In (s, d) l /\ (forall y, pt_in y s <-> exists z, val_mem z (cube_at O (act_of x) k d_src) /\ point_of_index reg z = y) /\
        (forall y, pt_in y d <-> exists z, val_mem z (cube_at O (act_of x) k d_dst) /\ point_of_index reg z = y)) /\
    (forall s d, In (s, d) l -> pok vis s /\ pok vis d /\ exists k, In k ks /\ (forall y, pt_in y s <-> exists z, val_mem z (cube_at O (act_of x) k d_src) /\ point_of_index reg z = y) /\
        (forall y, pt_in y d <-> exists z, val_mem z (cube_at O (act_of x) k d_dst) /\ point_of_index reg z = y))).
  { induction ks as [|k ks IH]; intros Hks; cbn [mapM]; [exists []; split; [reflexivity|]; split; [intros k []|intros s d []]|].
    destruct IH as (l & El & F1 & F2); [intros k' H; apply Hks; right; exact H|]. destruct (P k (Hks k (or_introl eq_refl))) as (s & d & Es & Ed & Ps & Pd & Ms & Md).
    rewrite Es, Ed. cbn [bind]. rewrite El. cbn [bind]. eexists. split; [reflexivity|]. split.
    - intros k' [<-|Hk]; [exists s, d; split; [left; reflexivity|]; split; assumption|]. destruct (F1 k' Hk) as (s' & d' & Hi & R). exists s', d'. split; [right; exact Hi|exact R].
    - intros s' d' [E|Hi]; [injection E as <- <-; split; [exact Ps|]; split; [exact Pd|]; exists k; split; [left; reflexivity|]; split; assumption|].
      destruct (F2 s' d' Hi) as (P1 & P2 & k' & Hk & R). split; [exact P1|]. split; [exact P2|]. exists k'. split; [right; exact Hk|exact R]. }
  destruct (G _ (fun k H => H)) as (l & El & F1 & F2). exists l. split; [exact El|]. split; [|split].
  - intros [s d] He. destruct (F2 s d He) as (P1 & P2 & k & Hk & R1 & R2). cbn [fst snd]. split; [exact P1|]. split; [exact P2|]. split.
    + destruct (V k Hk d_src) as [_ (z & Hz)]. exists (point_of_index reg z). apply R1. exists z; auto.
    + destruct (V k Hk d_dst) as [_ (z & Hz)]. exists (point_of_index reg z). apply R2. exists z; auto.
  - intros y. split.
    + intros ([s d] & He & Hy). cbn [fst] in Hy. destruct (F2 s d He) as (_ & _ & k & Hk & R1 & _). pose proof (proj1 (R1 y) Hy) as (zs & Hs & Ez). destruct (V k Hk d_dst) as [_ (zd & Hd)].
      destruct (cube_point_at dom reg vis D QK (cube_at O (act_of x) k) (V k Hk) zs zd Hs Hd) as (q & Sq & Q1 & _ & Mq). exists q. split; [exact Sq|]. split; [apply M; [exact Sq|]; exists k; auto|].
      unfold q_src, a_src. rewrite Q1. exact Ez.
    + intros (pt & Sp & Hm & <-). apply M in Hm; [|exact Sp]. destruct Hm as (k & Hk & Mk). destruct (F1 k Hk) as (s & d & Hi & R1 & _). exists (s, d). split; [exact Hi|]. apply R1. exists (pt d_src). split; [apply Mk|reflexivity].
  - intros y. split.
    + intros ([s d] & He & Hy). cbn [snd] in Hy. destruct (F2 s d He) as (_ & _ & k & Hk & _ & R2). pose proof (proj1 (R2 y) Hy) as (zd & Hd & Ez). destruct (V k Hk d_src) as [_ (zs & Hs)].
      destruct (cube_point_at dom reg vis D QK (cube_at O (act_of x) k) (V k Hk) zs zd Hs Hd) as (q & Sq & _ & Q2 & Mq). exists q. split; [exact Sq|]. split; [apply M; [exact Sq|]; exists k; auto|].
      unfold q_dst, a_dst. rewrite Q2. exact Ez.
    + intros (pt & Sp & Hm & <-). apply M in Hm; [|exact Sp]. destruct Hm as (k & Hk & Mk). destruct (F1 k Hk) as (s & d & Hi & _ & R2). exists (s, d). split; [exact Hi|]. apply R2. exists (pt d_dst). split; [apply Mk|reflexivity].
Qed.
End Ends.

Section Expl.
Context (reg vis : list peer) (R : reg_ok reg) (HV : container reg vis) (NE : vis <> []) (h6 : policy -> bool).
Context (cl : cluster) (owner workload : peer -> string) (LP : labels_plain cl vis) (fname : peer -> string).
Let dom := query_dom reg vis.
Let QK := query_alg reg vis R HV NE.
Let A := cube_ops dom std_all reg.
Let Q := cube_qops dom std_all reg.
Let L := q_claws dom std_rest reg vis _ _ QK.
Let QL := q_qlaws dom std_rest reg vis _ _ QK.
Let NB : forall p, In p vis -> is_block p = false := fun p H => proj2 (HV p H).
Let EL := cube_ends_law dom reg vis _ QK.
Local Notation space := (a_space dom).
Local Notation from := (a_src reg).
Local Notation to := (a_dst reg).
Local Notation ends := (cube_ends dom reg std_all).
Local Notation opinion := (@opinion).

(** ** Vocabulary *)
(** What was read: the policies of the documents are those of the configuration, none has the name of the default. *)
Definition documents_of (docs : list (@doc (hc val))) (gates : list (policy * string * Z)) (sidecars : list policy) (g : config) : Prop :=
  (forall p, In p (all_loaded docs gates sidecars) <-> In p (policy_list g)) /\ forall p, In p (policy_list g) -> p_name p <> "Default-Policy".
(** Named peers have names of their own. *)
Definition names_apart : Prop := forall k n q, In (Named k n) vis -> (is_block q = true \/ In q vis) -> fname q = fname (Named k n) -> q = Named k n.
(** The peer was read from a document; its name can be typed in as it is. *)
Definition described (items : list (string * Z * string * string)) (x : peer) : Prop :=
  fname x <> "" /\ (exists path ln work, In (path, ln, fname x, work) items) /\ has_char "[" (fname x) = false /\ has_char "]" (fname x) = false.
(** The side of the connection whose policies are asked for. *)
Definition near (ing : bool) (pt : conn) : point := if ing then to pt else from pt.
Definition far (ing : bool) (pt : conn) : point := if ing then from pt else to pt.
(** The policies selecting [x] are simple in the direction: if one allows anything in the direction then it is in force there, and what it
    allows for one of the peers selected it allows for [x]. *)
Definition simple_for (g : config) (ing : bool) (x : point) : Prop :=
  forall p pt, In p (policy_list g) -> pt_in x (p_selected p) -> space pt -> opinion p ing pt Allow ->
    captures_some p ing /\ exists pt', space pt' /\ opinion p ing pt' Allow /\ near ing pt' = x /\ far ing pt' = far ing pt.
(** [z] is the reason of the connectivity of [x] to (or from) [y]: a policy selecting [x] which allows a connection with [y]; or the default, if no
    policy selecting [x] allows any connection in this direction. *)
Definition reason (g : config) (ing : bool) (x y : point) (z : string) : Prop :=
  (exists p, In p (policy_list g) /\ pt_in x (p_selected p) /\ p_name p = z /\ exists pt, space pt /\ near ing pt = x /\ far ing pt = y /\ opinion p ing pt Allow) \/
  (z = "Default-Policy" /\ forall p pt, In p (policy_list g) -> pt_in x (p_selected p) -> space pt -> near ing pt = x -> ~ opinion p ing pt Allow).
(** The map shows a connection from [x] to [y]; with Istio layers, a TCP connection. *)
Definition map_connects (flag : bool) (s : subset) (g : config) (x y : point) : Prop :=
  exists pt, space pt /\ from pt = x /\ to pt = y /\ to_show reg vis h6 cl owner workload flag s g pt /\ (istio_layers (lays (g_pols g)) = true -> a_tcp pt = true).
(** Loading, the query, and then the explanation for the two names. *)
Definition explanation (ep : string) items docs gates sidecars (flag : bool) (s : subset) (g : config) (n m : string) : option report :=
  bind (tracked A ends fname cl owner workload Q h6 ep items docs gates sidecars flag s g) (fun t => explain_nodes A fname t [n; m]).
Definition in_order (l : list string) : Prop := StronglySorted (fun x y => String.compare x y = Lt) l.

(** ** Bridges *)
Lemma good_policy : forall g, plain reg vis g -> forall p, In p (policy_list g) ->
  (policy_ok (q_ok dom std_rest) vis p /\ forall d, policy_safe A (a_safe std_rest) d p) /\ forall d pt, ~ policy_says a_mem d pt p Pass.
Proof using R HV NE.
  intros g (_ & _ & H) p Hp. destruct (H p Hp) as [(W & _ & CC) NP]. split.
  - assert (O : policy_ok (q_ok dom std_rest) vis p).
    { destruct (wf_ok dom std_rest vis p W) as (K1 & K2 & K3). split; [|split; [|exact K3]]; intros r Hr; (split; [auto|apply CC; apply in_or_app; auto]). }
    split; [exact O|]. intros d. intros Cc. apply calico_class in Cc.
    apply (exact_safe dom std_rest reg vis _ _ (qa_alg _ _ _ _ _ _ QK)).
    + intros r Hr. apply (proj1 W r); [apply in_or_app; destruct d; auto|exact Cc].
    + left. intros r Hr. apply (NP Cc). apply in_or_app. destruct d; auto.
  - intros d pt S. apply says_bridge in S. unfold PropLayers.opinion in S. destruct (p_kind p) eqn:Ek; try exact S; try (destruct S as [S _]; discriminate S); try (destruct S as (_ & [S|S] & _); discriminate S).
    1-3: (destruct S as (pre & r & post & E & Ea & _); apply (NP (ltac:(unfold is_calico; rewrite Ek; auto)) r); [apply in_or_app; destruct d; [left|right]; cbn [rules_of] in E; rewrite E; apply in_or_app; right; left; reflexivity|exact Ea]).
    destruct S as (_ & _ & [S|S] & _); discriminate S.
Qed.
Lemma ascending_order : forall l, ascending l -> in_order l.
Proof using.
  induction 1 as [|x l H _ IH]; constructor; [exact IH|]. apply Forall_forall. intros y Hy. specialize (H y Hy). unfold str_lt in H. destruct (String.compare x y); congruence.
Qed.
Lemma connects_linked : forall flag s g ka na kb nb, plain reg vis g -> answerable reg vis None g ->
  (map_connects flag s g (PN ka na) (PN kb nb) <-> linked A Q (q_src reg) (q_dst reg) (q_space dom) a_mem cl owner workload g h6 flag s ka na kb nb).
Proof using R HV NE LP.
  intros flag s g ka na kb nb P S. pose proof (plain_good reg vis g P) as G. pose proof (good_cfg reg vis R HV NE g G) as CG. pose proof (answer_ok reg vis None g S) as CS.
  destruct (map_conns_spec cl owner workload A Q (q_src reg) (q_dst reg) a_tcp (q_space dom) a_mem (q_ok dom std_rest) (a_safe std_rest) vis q_put L QL NB h6 flag s g CG CS) as (_ & _ & _ & M & _).
  destruct (expl_conns_spec A Q (q_src reg) (q_dst reg) a_tcp (q_space dom) a_mem (q_ok dom std_rest) (a_safe std_rest) vis q_put L QL NB cl owner workload g CG CS h6 flag s) as [_ X]. cbv zeta in X.
  assert (T : forall pt, space pt -> (a_mem pt (fst (map_conns cl owner workload A Q h6 flag s g)) <-> to_show reg vis h6 cl owner workload flag s g pt)).
  { intros pt Sp. refine (iff_trans (M pt Sp) _). unfold to_show.
    assert (C1 : connects reg vis None g pt <-> QuerySpecs.allows A a_mem g pt) by (exact (connects_on reg vis R HV NE None g pt G S Sp)).
    assert (C2 : relevant (excludes6 h6 flag g) (from pt) (to pt) <-> looks_at reg h6 flag g g pt).
    { rewrite <- looks_rel. unfold excl. rewrite Bool.andb_diag. tauto. }
    pose proof (q_ends _ _ _ _ _ _ _ _ _ _ _ QL pt Sp) as [E1 E2].
    assert (V : forall y, anywhere vis y -> forall k m, y = PN k m -> In (Named k m) vis) by (intros y [H|H] k m ->; [exact H|destruct H]).
    pose proof (chosen_spec vis cl owner workload LP s (from pt) (V _ E1)) as D1. pose proof (chosen_spec vis cl owner workload LP s (to pt) (V _ E2)) as D2. unfold q_src, q_dst in *. fold A. tauto. }
  unfold map_connects, linked, q_src, q_dst. split.
  - intros (pt & Sp & E1 & E2 & Sh & Tc). exists pt. split; [exact Sp|]. split; [exact E1|]. split; [exact E2|]. apply X; [exact Sp|]. split; [apply T; assumption|exact Tc].
  - intros (pt & Sp & E1 & E2 & Mx). apply X in Mx as [Mx Tc]; [|exact Sp]. exists pt. split; [exact Sp|]. split; [exact E1|]. split; [exact E2|]. split; [apply T; assumption|exact Tc].
Qed.
Lemma reason_explains : forall g ing ka na kb nb z, reason g ing (PN ka na) (PN kb nb) z <-> explains (q_src reg) (q_dst reg) (q_space dom) a_mem g ka na ing kb nb z.
Proof using.
  intros g ing ka na kb nb z. unfold reason, explains, near, far, LayerFacts.here, LayerFacts.there, q_src, q_dst. split.
  - intros [(p & Hp & Hs & Hz & pt & Sp & E1 & E2 & Ho)|[Hz H]]; [left; exists p; split; [exact Hp|]; split; [exact Hs|]; split; [exact Hz|]; exists pt; split; [exact Sp|]; split; [exact E1|]; split; [exact E2|]; apply says_bridge; exact Ho|].
    right. split; [exact Hz|]. intros p pt Hp Hs Sp E Ho. apply says_bridge in Ho. exact (H p pt Hp Hs Sp E Ho).
  - intros [(p & Hp & Hs & Hz & pt & Sp & E1 & E2 & Ho)|[Hz H]]; [left; exists p; split; [exact Hp|]; split; [exact Hs|]; split; [exact Hz|]; exists pt; split; [exact Sp|]; split; [exact E1|]; split; [exact E2|]; apply says_bridge; exact Ho|].
    right. split; [exact Hz|]. intros p pt Hp Hs Sp E Ho. apply says_bridge in Ho. exact (H p pt Hp Hs Sp E Ho).
Qed.
Lemma simple_both : forall g ing k n, simple_for g ing (PN k n) -> heeded (q_space dom) a_mem g ing k n /\ even (q_src reg) (q_dst reg) (q_space dom) a_mem g ing k n.
Proof using.
  intros g ing k n H. split; intros p pt Hp Hs Sp Ho; apply says_bridge in Ho; destruct (H p pt Hp Hs Sp Ho) as (C1 & pt' & Sp' & Ho' & E1 & E2); [exact C1|].
  exists pt'. split; [exact Sp'|]. split; [apply says_bridge; exact Ho'|]. split; [exact E1|exact E2].
Qed.

(** ** C75 *)
(** C75.  If the map shows a connection from one pod (or host endpoint) to another then the explanation says so and lists, in the order of names,
    exactly the reasons on both sides; there is at least one on each. *)
Theorem C75_explains_connection : forall ep items docs gates sidecars flag s g ka na kb nb,
  plain reg vis g -> answerable reg vis None g -> documents_of docs gates sidecars g -> names_apart -> ep <> "deployments" ->
  In (Named ka na) (g_peers g) -> In (Named kb nb) (g_peers g) -> described items (Named ka na) -> described items (Named kb nb) ->
  simple_for g false (PN ka na) -> simple_for g true (PN kb nb) ->
  map_connects flag s g (PN ka na) (PN kb nb) ->
  exists ls ld, explanation ep items docs gates sidecars flag s g (fname (Named ka na)) (fname (Named kb nb)) = Some (RTwo true (fname (Named ka na)) (fname (Named kb nb)) ls ld) /\
    in_order ls /\ in_order ld /\ ls <> [] /\ ld <> [] /\
    (forall z, In z ls <-> reason g false (PN ka na) (PN kb nb) z) /\ (forall z, In z ld <-> reason g true (PN kb nb) (PN ka na) z).
Proof using R HV NE LP.
  intros ep items docs gates sidecars flag s g ka na kb nb P S [LD ND] FN Ep Ha Hb (A1 & A2 & A3) (B1 & B2 & B3) Sa Sb Mc.
  pose proof (plain_good reg vis g P) as G. pose proof (good_cfg reg vis R HV NE g G) as CG. pose proof (answer_ok reg vis None g S) as CS. pose proof (loaded_inv g (proj1 (proj2 P))) as Iv.
  destruct (simple_both _ _ _ _ Sa) as [Sa1 Sa2]. destruct (simple_both _ _ _ _ Sb) as [Sb1 Sb2]. apply connects_linked in Mc; [|exact P|exact S].
  destruct (pair_connected A Q (q_src reg) (q_dst reg) a_tcp (q_space dom) a_mem (q_ok dom std_rest) (a_safe std_rest) vis q_put L QL NB ends fname EL FN cl owner workload g CG CS Iv docs gates sidecars LD
              (fun p Hp => proj1 (good_policy g P p Hp)) (fun p d pt Hp _ => proj2 (good_policy g P p Hp) d pt) ND h6 ep items flag s Ep ka na kb nb Ha Hb (conj A1 A2) (conj B1 B2) A3 B3 Sa1 Sa2 Sb1 Sb2 Mc)
    as (t & ls & ld & E1 & E2 & O1 & O2 & N1 & N2 & R1 & R2).
  exists ls, ld. split; [unfold explanation; rewrite E1; exact E2|]. split; [apply ascending_order; exact O1|]. split; [apply ascending_order; exact O2|]. split; [exact N1|]. split; [exact N2|].
  split; intros z; [refine (iff_trans (R1 z) _)|refine (iff_trans (R2 z) _)]; apply iff_sym, reason_explains.
Qed.
(** ** C76 *)
(** C76.  If no subset is chosen and the map shows no connection then the explanation says that connectivity is lacking; the lists have the names of
    all policies selecting the pods and no other names but that of the default; and between two pods, a policy that is in force on the egress of the
    source or the ingress of the destination is among them. *)
Theorem C76_explains_lack : forall ep items docs gates sidecars flag g ka na kb nb,
  plain reg vis g -> answerable reg vis None g -> documents_of docs gates sidecars g -> names_apart -> ep <> "deployments" ->
  In (Named ka na) (g_peers g) -> In (Named kb nb) (g_peers g) -> described items (Named ka na) -> described items (Named kb nb) ->
  let all := Subset None None None in ~ map_connects flag all g (PN ka na) (PN kb nb) ->
  exists ls ld, explanation ep items docs gates sidecars flag all g (fname (Named ka na)) (fname (Named kb nb)) = Some (RTwo false (fname (Named ka na)) (fname (Named kb nb)) ls ld) /\
    in_order ls /\ in_order ld /\
    (forall z, z <> "Default-Policy" -> (In z ls <-> exists p, In p (policy_list g) /\ pt_in (PN ka na) (p_selected p) /\ p_name p = z)) /\
    (forall z, z <> "Default-Policy" -> (In z ld <-> exists p, In p (policy_list g) /\ pt_in (PN kb nb) (p_selected p) /\ p_name p = z)) /\
    (ka = 0 -> kb = 0 -> exists p, In p (policy_list g) /\ (selects p false (PN ka na) /\ In (p_name p) ls \/ selects p true (PN kb nb) /\ In (p_name p) ld)).
Proof using R HV NE LP.
  intros ep items docs gates sidecars flag g ka na kb nb P S [LD ND] FN Ep Ha Hb (A1 & A2 & A3) (B1 & B2 & B3) all Mc.
  pose proof (plain_good reg vis g P) as G. pose proof (good_cfg reg vis R HV NE g G) as CG. pose proof (answer_ok reg vis None g S) as CS. pose proof (loaded_inv g (proj1 (proj2 P))) as Iv.
  assert (Nl : ~ linked A Q (q_src reg) (q_dst reg) (q_space dom) a_mem cl owner workload g h6 flag all ka na kb nb) by (intros H; apply Mc; apply connects_linked; assumption).
  destruct (pair_apart A Q (q_src reg) (q_dst reg) a_tcp (q_space dom) a_mem (q_ok dom std_rest) (a_safe std_rest) vis q_put L QL NB ends fname EL FN cl owner workload g CG CS Iv docs gates sidecars LD
              (fun p Hp => proj1 (good_policy g P p Hp)) (fun p d pt Hp _ => proj2 (good_policy g P p Hp) d pt) ND h6 ep items flag all Ep ka na kb nb Ha Hb (conj A1 A2) (conj B1 B2) A3 B3 eq_refl Nl)
    as (t & ls & ld & E1 & E2 & O1 & O2 & F & R1 & R2 & X).
  exists ls, ld. split; [unfold explanation; rewrite E1; exact E2|]. split; [apply ascending_order; exact O1|]. split; [apply ascending_order; exact O2|]. split; [|split].
  - intros z Nz. split; [intros Hz; destruct (R1 z Hz) as [Hd|Hp]; [destruct (Nz Hd)|exact Hp]|]. intros (p & Hp & Hs & <-). apply (F p Hp). exact Hs.
  - intros z Nz. split; [intros Hz; destruct (R2 z Hz) as [Hd|Hp]; [destruct (Nz Hd)|exact Hp]|]. intros (p & Hp & Hs & <-). apply (F p Hp). exact Hs.
  - intros -> ->. destruct X as (p & Hp & H); [cbn; discriminate..|]. exists p. split; [exact Hp|]. destruct H as [[H1 H2]|[H1 H2]]; [left|right]; (split; [apply captured_bridge; exact H1|exact H2]).
Qed.
End Expl.
Print Assumptions C75_explains_connection.
Print Assumptions C76_explains_lack.
