(** * C36: cases. *)
From Coq Require Import ZArith List Bool Arith Lia String Ascii.
From Verif Require Import IntervalModel IntervalFacts HyperModel HyperFacts HyperTop HyperInst PropHyperCube ConnModel ConnFacts TextModel PortProtoModel PeerModel PeerFacts PeerSetFacts
                          PolicyModel PolicyLaws PolicyFacts LayerFacts ConnAlg StdDims PropLayers QueryModel QueryFacts QueryAlg ConnDict YamlModel ClusterModel PropSelectors FWModel FWFacts FWAlg FWLabels PropFW
                          PropQueryCases PropIstioCases.
Import ListNotations.
Local Open Scope string_scope.
Local Open Scope list_scope.
Local Open Scope nat_scope.

(** ** Unions of rectangles of connections *)
Definition rects := list (peerset * peerset * option bool).
Definition of_rects (rs : rects) : hc val := fold_right (fun r h => c_or qA (c_rect qA (Some (fst (fst r))) (Some (snd (fst r))) (snd r)) h) (c_empty qA) rs.
Definition listed_points (ps : peerset) (x : point) : Prop := match x with PN k n => In (Named k n) ps | PA _ => True end.
(** No address on both sides, no DNS entry as a source, none as a destination of addresses. *)
Definition kinds_fit (s d : peerset) : bool :=
  negb (existsb (fun p => match p with Named k _ => Nat.eqb k kind_dns | Block _ => false end) s) &&
  negb (existsb is_block s && existsb (fun p => match p with Named k _ => Nat.eqb k kind_dns | Block _ => true end) d).
Lemma kinds_fit_ok : forall s d x y, kinds_fit s d = true -> pt_in x s -> pt_in y d -> possible x y.
Proof.
  intros s d x y E Hx Hy. apply andb_true_iff in E as [E1 E2]. apply negb_true_iff in E1, E2.
  assert (N : forall (f : peer -> bool) l p, existsb f l = false -> In p l -> f p = false).
  { intros f l p E H. destruct (f p) eqn:Q; auto. assert (existsb f l = true) by (apply existsb_exists; eauto). congruence. }
  split.
  - intros [A B]. destruct x as [k n|z]; [destruct A|]. destruct Hx as (l & Hl & _).
    assert (X : existsb is_block s = true) by (apply existsb_exists; exists (Block l); auto). rewrite X in E2. cbn [andb] in E2.
    destruct y as [k n|w].
    + destruct B as [[]|B]. apply (N _ _ _ E2) in Hy. cbn in B. subst k. discriminate.
    + destruct Hy as (m & Hm & _). apply (N _ _ _ E2) in Hm. discriminate.
  - intros A. destruct x as [k n|z]; [|destruct A]. apply (N _ _ _ E1) in Hx. cbn in A. subst k. discriminate.
Qed.
Lemma rects_ok : forall rs, Forall (fun r => pok q_vis (fst (fst r)) /\ pok q_vis (snd (fst r)) /\ kinds_fit (fst (fst r)) (snd (fst r)) = true) rs ->
  q_ok q_dom std_rest (of_rects rs) /\
  forall pt, a_space q_dom pt -> pt @ of_rects rs -> possible (a_src ex_reg pt) (a_dst ex_reg pt) /\ listed q_vis (a_src ex_reg pt) /\ listed q_vis (a_dst ex_reg pt).
Proof.
  pose proof (q_claws q_dom std_rest ex_reg q_vis _ _ (query_alg ex_reg q_vis ex_reg_ok q_container q_ne)) as L.
  induction rs as [|[[s d] pr] rs IH]; intros F.
  - split; [exact (l_empty_ok _ _ _ _ _ _ _ _ _ L)|]. intros pt _ H. destruct (l_empty _ _ _ _ _ _ _ _ _ L pt H).
  - inversion F as [|? ? (P1 & P2 & P3) F']. subst. cbn [fst snd] in *. destruct (IH F') as [A B].
    pose proof (l_rect_ok _ _ _ _ _ _ _ _ _ L (Some s) (Some d) pr P1 P2) as A1. split; [exact (l_or_ok _ _ _ _ _ _ _ _ _ L _ _ A1 A)|].
    intros pt Sp H. destruct (proj1 (l_or _ _ _ _ _ _ _ _ _ L _ _ pt A1 A Sp) H) as [H'|H']; [|exact (B pt Sp H')].
    destruct (proj1 (l_rect _ _ _ _ _ _ _ _ _ L (Some s) (Some d) pr pt P1 P2 Sp) H') as (H1 & H2 & _). cbn [opt] in H1, H2.
    split; [exact (kinds_fit_ok s d _ _ P3 H1 H2)|].
    assert (Ls : forall x ps, pok q_vis ps -> pt_in x ps -> listed q_vis x). { intros [k n|z] ps Hp Hx; [|exact I]. apply (proj2 Hp k n). exact Hx. }
    split; [exact (Ls _ s P1 H1)|exact (Ls _ d P2 H2)].
Qed.

(** ** The cluster of the cases: pods a and b in namespace ns, pod c in namespace other, a DNS entry *)
Lemma peers_vis : forall p, In p q_vis -> is_block p = false -> In p q_vis.
Proof. auto. Qed.
Lemma ex_plain : labels_plain ex_cl (without_ip_block q_vis).
Proof.
  intros p H. cbn in H. destruct H as [<-|[<-|[<-|[<-|[]]]]].
  - split; [repeat constructor; cbn; intuition discriminate|]. intros k v [E|[E|[]]]; injection E as <- <-; repeat split; discriminate.
  - split; [repeat constructor; cbn; intuition discriminate|]. intros k v [E|[]]; injection E as <- <-; repeat split; discriminate.
  - split; [repeat constructor; cbn; intuition discriminate|]. intros k v [E|[]]; injection E as <- <-; repeat split; discriminate.
  - split; [constructor|]. intros k v [].
Qed.
Definition q_rules (allowed : list string) := fw_rules ex_reg q_vis ex_cl q_vis allowed.
Definition q_allow := rules_allow ex_reg ex_cl q_vis.
Definition shape (r : option (list (hc val * list (elem * elem)))) : option (list (list (elem * elem))) := option_map (map snd) r.
Local Opaque all_ips.
Definition ips : peerset := [Block all_ips].
Lemma ok_ips : pok q_vis ips. Proof. pokq. Qed.
Lemma ok_ab : pok q_vis [pa; pb]. Proof. pokq. Qed.
Lemma ok_ac : pok q_vis [pa; pc]. Proof. pokq. Qed.
(** Pods a and b reach c by TCP, b reaches the DNS entry, all addresses reach a and c. *)
Definition f_rects : rects := [([pa; pb], [pc], Some true); ([pb], [dns], None); (ips, [pa; pc], None)].
Local Transparent all_ips.
Lemma f_rects_ok : Forall (fun r => pok q_vis (fst (fst r)) /\ pok q_vis (snd (fst r)) /\ kinds_fit (fst (fst r)) (snd (fst r)) = true) f_rects.
Proof.
  apply Forall_cons; [split; [exact ok_ab|split; [exact ok_c|reflexivity]]|]. apply Forall_cons; [split; [exact ok_b|split; [exact ok_dns|reflexivity]]|].
  apply Forall_cons; [split; [exact ok_ips|split; [exact ok_ac|reflexivity]]|]. constructor.
Qed.
(** The rules: namespace ns -> namespace other; app=db in ns -> the DNS entry; the addresses -> namespace other, and app=web in ns. *)
Example ex_rules_shape : shape (q_rules ["app"; "tier"] true None (of_rects f_rects)) =
  Some [[(ENs [Some "ns"], ENs [Some "other"])];
        [(EIp all_ips, ENs [Some "other"]); (ELabels "app" ["db"] (Some "ns"), EDns dns); (EIp all_ips, ELabels "app" ["web"] (Some "ns"))]] /\
  shape (q_rules [] true None (of_rects f_rects)) =
  Some [[(ENs [Some "ns"], ENs [Some "other"])]; [(EIp all_ips, ENs [Some "other"]); (EPeers [pb], EDns dns); (EIp all_ips, EPeers [pa])]].
Proof. split; vm_compute; reflexivity. Qed.
Definition q_case (allowed : list string) (rs : rects) (F : Forall (fun r => pok q_vis (fst (fst r)) /\ pok q_vis (snd (fst r)) /\ kinds_fit (fst (fst r)) (snd (fst r)) = true) rs) single restr :=
  C36_rules ex_reg q_vis ex_reg_ok q_container q_ne ex_cl q_vis allowed peers_vis ex_plain single restr (of_rects rs) (proj1 (rects_ok rs F)) (proj2 (rects_ok rs F)).
Example ex_rules : exists r, q_rules ["app"; "tier"] true None (of_rects f_rects) = Some r /\
  (forall pt, a_space q_dom pt -> q_allow r pt -> pt @ of_rects f_rects \/ exists k n, k < 2 /\ a_src ex_reg pt = PN k n /\ a_dst ex_reg pt = PN k n) /\
  (forall pt, a_space q_dom pt -> pt 6 <> 0%Z -> pt 7 <> 0%Z -> pt @ of_rects f_rects -> q_allow r pt).
Proof.
  destruct (q_case ["app"; "tier"] f_rects f_rects_ok true None) as (r & E & S & Cp). exists r. split; [exact E|]. split; [|exact Cp]. intros pt Sp. exact (S pt Sp I).
Qed.
Lemma qh_space : forall s d pr dp me h p, in_iset s (query_peers ex_reg q_vis) = true -> in_iset d (query_peers ex_reg q_vis) = true ->
  (0 <= pr <= 255)%Z -> (1 <= dp <= 65535)%Z -> (0 <= me <= 8)%Z -> a_space q_dom (hconn s d pr dp me h p).
Proof.
  intros s d pr dp me h p Hs Hd Hp Hdp Hme e. apply in_iset_spec in Hs, Hd.
  do 3 (destruct e as [|e]; [cbn -[query_peers Z.le]; auto; try (exists (Ivl 0 255); split; [left; auto|cbn [lo hi]; lia])|]).
  do 2 (destruct e as [|e]; [exists (Ivl 1 65535); split; [left; auto|cbn [lo hi hconn]; lia]|]).
  destruct e as [|e]; [exists (Ivl 0 8); split; [left; auto|cbn [lo hi hconn]; lia]|].
  destruct e as [|e]; [intros H; apply mem_nil in H; auto|].
  destruct e as [|e]; [intros H; apply mem_nil in H; auto|].
  destruct e as [|e]; [exists (Ivl 0 254); split; [left; auto|cbn [lo hi hconn]; lia]|].
  destruct e as [|e]; [exists (Ivl 0 255); split; [left; auto|cbn [lo hi hconn]; lia]|].
  exists (Ivl 0 100000); split; [left; auto|cbn [lo hi hconn]; lia].
Qed.
Ltac qhspace := apply qh_space; [vm_compute; reflexivity..| | |]; lia.
Ltac yesf := match goal with |- ?p @ ?h => exact (proj1 (inside_spec p h) (eq_refl true <: inside p h = true)) end.
Ltac nof := match goal with |- ~ ?p @ ?h => exact (proj1 (inside_not p h) (eq_refl false <: inside p h = false)) end.
(** A connection of the rules, and one with the restriction to TCP. *)
Definition got (r : option (list (hc val * list (elem * elem)))) : list (hc val * list (elem * elem)) := match r with Some l => l | None => [] end.
Example ex_rules_conn : let r := got (q_rules ["app"; "tier"] true None (of_rects f_rects)) in
  q_allow r (hconn (idx pa) (idx pc) 6 80 0 1 1) /\ ~ q_allow r (hconn (idx pa) (idx pc) 17 80 0 1 1) /\ ~ q_allow r (hconn (idx pa) (idx dns) 6 80 0 1 1) /\
  q_allow r (hconn 0 (idx pa) 17 80 0 1 1) /\ ~ q_allow r (hconn 0 (idx pb) 17 80 0 1 1).
Proof.
  cbv zeta. destruct ex_rules as (r & E & S & Cp). rewrite E. cbn [got].
  assert (No : forall s d pr k n x, a_space q_dom (hconn s d pr 80 0 1 1) -> ~ hconn s d pr 80 0 1 1 @ of_rects f_rects ->
    a_dst ex_reg (hconn s d pr 80 0 1 1) = PN k n -> a_src ex_reg (hconn s d pr 80 0 1 1) = x -> x <> PN k n -> ~ q_allow r (hconn s d pr 80 0 1 1)).
  { intros s d pr k n x Sp N E1 E2 E3 H. destruct (S _ Sp H) as [H'|(k' & n' & _ & F1 & F2)]; [exact (N H')|]. apply E3. exact (eq_trans (eq_sym E2) (eq_trans F1 (eq_trans (eq_sym F2) E1))). }
  clear E. split; [apply (Cp (hconn (idx pa) (idx pc) 6 80 0 1 1)); [clear; qhspace|discriminate|discriminate|clear; yesf]|].
  split; [apply (No (idx pa) (idx pc) 17%Z 0 "ns/c" (PN 0 "ns/a")); [clear; qhspace|clear; nof|vm_compute; reflexivity|vm_compute; reflexivity|discriminate]|].
  split; [apply (No (idx pa) (idx dns) 6%Z 2 "www.ibm.com" (PN 0 "ns/a")); [clear; qhspace|clear; nof|vm_compute; reflexivity|vm_compute; reflexivity|discriminate]|].
  split; [apply (Cp (hconn 0 (idx pa) 17 80 0 1 1)); [clear; qhspace|discriminate|discriminate|clear; yesf]|].
  apply (No 0%Z (idx pb) 17%Z 0 "ns/b" (PA 0)); [clear; qhspace|clear; nof|vm_compute; reflexivity|vm_compute; reflexivity|discriminate].
Qed.
(** Without the exceptions of C36_rules it fails: the rules of one connection, from pod a to pod b of a namespace with two pods, allow pod a to reach itself
    (MinimizeCsFwRules.py:143-147, MinimizeBasic.py:58-63: a namespace covers the peer itself as well). *)
Definition self_rects : rects := [([pa], [pb], None)].
Lemma self_rects_ok : Forall (fun r => pok q_vis (fst (fst r)) /\ pok q_vis (snd (fst r)) /\ kinds_fit (fst (fst r)) (snd (fst r)) = true) self_rects.
Proof. apply Forall_cons; [split; [exact ok_a|split; [exact ok_b|reflexivity]]|constructor]. Qed.
Theorem C36_self_refuted : exists h pt r, q_ok q_dom std_rest h /\
  (forall q, a_space q_dom q -> q @ h -> possible (a_src ex_reg q) (a_dst ex_reg q) /\ listed q_vis (a_src ex_reg q) /\ listed q_vis (a_dst ex_reg q)) /\
  q_rules [] true None h = Some r /\ a_space q_dom pt /\ pt 6 <> 0%Z /\ pt 7 <> 0%Z /\ q_allow r pt /\ ~ pt @ h.
Proof.
  set (h := of_rects self_rects). set (pt := hconn (idx pa) (idx pa) 6 80 0 1 1). exists h, pt. destruct (rects_ok self_rects self_rects_ok) as [A B].
  exists (got (q_rules [] true None h)). split; [exact A|]. split; [exact B|]. split; [vm_compute; reflexivity|]. split; [qhspace|]. split; [discriminate|]. split; [discriminate|].
  split; [|nof].
  exists (fst (nth 0 (got (q_rules [] true None h)) (Fail, []))), (snd (nth 0 (got (q_rules [] true None h)) (Fail, []))), (EPeers [pa]), (ENs [Some "ns"]).
  split; [vm_compute; auto|]. split; [vm_compute; auto|]. split; [yesf|]. split; [vm_compute; auto|].
  exists 0, "ns/a". split; [vm_compute; reflexivity|]. split; [left; reflexivity|left; reflexivity].
Qed.
(** A connection whose host is the empty word is lost when no other host goes with it: the cube is taken for an empty one (FWAlg.split_cube,
    ConnectivityCube.is_empty; F1).  The connections from pod a to pod b, without those that have a non-empty host. *)
Definition hosts_cube : dim -> val := fun e => match e with 6 => VN true [Ivl 0 0] | _ => q_dom e end.
Definition hosts_conns : hc val := make_props (val_ops q_dom) (dim_empty q_dom) std_all hosts_cube.
Definition no_host : hc val := c_sub qA (c_rect qA (Some [pa]) (Some [pb]) None) hosts_conns.
Local Notation tq := (fun e => match q_dom e with VI _ => VI [] | VN _ _ => VN false [] end).
Lemma no_host_ok : q_ok q_dom std_rest no_host /\
  (forall pt, a_space q_dom pt -> pt @ no_host -> possible (a_src ex_reg pt) (a_dst ex_reg pt) /\ listed q_vis (a_src ex_reg pt) /\ listed q_vis (a_dst ex_reg pt)).
Proof.
  pose proof (query_alg ex_reg q_vis ex_reg_ok q_container q_ne) as QK. pose proof (q_claws q_dom std_rest ex_reg q_vis _ _ QK) as L.
  pose proof (qa_alg _ _ _ _ _ _ QK) as K. pose proof (val_laws q_dom (ok_doms _ _ _ _ _ _ K)) as VL.
  assert (Vc : forall d, val_valid q_dom d (hosts_cube d)).
  { intros d. unfold hosts_cube. do 6 (destruct d as [|d]; [exact (L_dom _ _ _ VL _)|]). destruct d as [|d]; [|exact (L_dom _ _ _ VL _)].
    unfold val_valid. cbn. split; [lia|]. split; [exact Logic.I|]. intros z Hz. rewrite mem_nil. tauto. }
  assert (Hh : q_ok q_dom std_rest hosts_conns).
  { destruct (make_props_spec (val_ops q_dom) val_mem (val_valid q_dom) VL std_all tq hosts_cube (ok_nodup _ _ _ _ _ _ K) ltac:(discriminate) (fun d _ => Vc d) (fun d _ => tempty_ok q_dom d)) as [A _].
    assert (E : hosts_conns = make_props (val_ops q_dom) tq std_all hosts_cube) by (vm_compute; reflexivity).
    split; [rewrite E; exact A|vm_compute; reflexivity]. }
  pose proof (l_rect_ok _ _ _ _ _ _ _ _ _ L (Some [pa]) (Some [pb]) None ok_a ok_b) as A1.
  pose proof (l_safe_rect _ _ _ _ _ _ _ _ _ L (Some [pa]) (Some [pb]) None hosts_conns ok_a ok_b Hh) as Sf.
  split; [exact (l_sub_ok _ _ _ _ _ _ _ _ _ L _ _ A1 Hh Sf)|]. intros pt Sp H.
  destruct (proj1 (l_sub _ _ _ _ _ _ _ _ _ L _ _ pt A1 Hh Sf Sp) H) as [H' _].
  destruct (proj1 (l_rect _ _ _ _ _ _ _ _ _ L (Some [pa]) (Some [pb]) None pt ok_a ok_b Sp) H') as (H1 & H2 & _). cbn [opt] in H1, H2.
  split; [exact (kinds_fit_ok [pa] [pb] _ _ eq_refl H1 H2)|].
  assert (Ls : forall x ps, pok q_vis ps -> pt_in x ps -> listed q_vis x). { intros [k n|z] ps Hp Hx; [|exact I]. apply (proj2 Hp k n). exact Hx. }
  split; [exact (Ls _ _ ok_a H1)|exact (Ls _ _ ok_b H2)].
Qed.
Theorem C36_empty_host_refuted : exists h pt r, q_ok q_dom std_rest h /\
  (forall q, a_space q_dom q -> q @ h -> possible (a_src ex_reg q) (a_dst ex_reg q) /\ listed q_vis (a_src ex_reg q) /\ listed q_vis (a_dst ex_reg q)) /\
  q_rules [] true None h = Some r /\ a_space q_dom pt /\ pt @ h /\ ~ q_allow r pt.
Proof.
  exists no_host, (hconn (idx pa) (idx pb) 6 80 0 0 1), []. destruct no_host_ok as [A B]. split; [exact A|]. split; [exact B|]. split; [vm_compute; reflexivity|]. split; [qhspace|].
  split; [yesf|]. intros (p & l & s & d & [] & _).
Qed.
Print Assumptions C36_self_refuted.
Print Assumptions C36_empty_host_refuted.
