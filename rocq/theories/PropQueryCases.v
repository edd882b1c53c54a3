(** * Concrete cases and counterexamples for C29-C34 (PropQueries.v). *)
From Coq Require Import ZArith List Bool Arith Lia String.
From Verif Require Import IntervalModel IntervalFacts HyperModel HyperFacts HyperTop HyperInst PropHyperCube ConnModel
                          PortProtoModel PeerModel PeerFacts PeerSetFacts PolicyModel PolicyLaws PolicyFacts LayerFacts
                          OrderFacts ConnAlg StdDims HyperDims PropLayers QueryModel QueryFacts QueryAlg QuerySpecs SemDiff QueryOne PropQueries.
Import ListNotations.
Local Open Scope string_scope.
Local Open Scope nat_scope.
Local Open Scope list_scope.

(** ** Identity of rules *)
Definition ivl_dec : forall a b : ivl, {a = b} + {a <> b}.
Proof. decide equality; apply Z.eq_dec. Defined.
Definition val_dec : forall x y : val, {x = y} + {x <> y}.
Proof. decide equality; [apply (list_eq_dec ivl_dec)..|apply bool_dec]. Defined.
Definition cls_dec : forall x y : cls, {x = y} + {x <> y}.
Proof. decide equality. Defined.
Fixpoint hc_dec (x y : hc val) {struct x} : {x = y} + {x <> y}.
Proof.
  assert (PD : forall l : list (val * hc val), (forall a b : val * hc val, {a = b} + {a <> b}) -> True) by auto.
  destruct x as [| |c1 a1 l1], y as [| |c2 a2 l2]; try (left; reflexivity); try (right; discriminate).
  destruct (cls_dec c1 c2) as [->|N]; [|right; congruence].
  destruct (list_eq_dec Nat.eq_dec a1 a2) as [->|N]; [|right; congruence].
  assert (D : {l1 = l2} + {l1 <> l2}).
  { clear PD. revert l2. induction l1 as [|[v s] l1 IH]; intros [|[w t] l2]; try (left; reflexivity); try (right; discriminate).
    destruct (val_dec v w) as [->|N]; [|right; congruence]. destruct (hc_dec s t) as [->|N]; [|right; congruence].
    destruct (IH l2) as [->|N]; [left; reflexivity|right; congruence]. }
  destruct D as [->|N]; [left; reflexivity|right; congruence].
Defined.
Definition peer_eq_dec : forall x y : peer, {x = y} + {x <> y}.
Proof. decide equality; try apply string_dec; try apply Nat.eq_dec; try apply Z.eq_dec; apply (list_eq_dec ivl_dec). Defined.
Definition rule_dec : forall r s : rule, {r = s} + {r <> s}.
Proof. decide equality; [apply hc_dec|apply (list_eq_dec peer_eq_dec)..|decide equality]. Defined.
Definition rid0 (r s : rule) : bool := if rule_dec r s then true else false.
Lemma rid_sound : forall r s, rid0 r s = true -> r = s.
Proof. intros r s. unfold rid0. destruct (rule_dec r s); [auto|discriminate]. Qed.
Lemma rid_refl : forall r, rid0 r r = true.
Proof. intros r. unfold rid0. destruct (rule_dec r r); [auto|congruence]. Qed.

(** ** Rules made of peer sets, over the domain of a query *)
Section Rules.
Context (vis : list peer) (HV : container ex_reg vis) (NE : vis <> []).
Definition vdom := query_dom ex_reg vis.
Definition vA : cops (hc val) := cube_ops vdom std_all ex_reg.
Definition vQ : qops (hc val) := cube_qops vdom std_all ex_reg.
Definition rv (a : action) (s d : peerset) (pr : option bool) : rule := Rule a s d (c_rect vA (Some s) (Some d) pr).
Let v_alg := query_alg ex_reg vis ex_reg_ok HV NE.
Let v_laws := q_claws vdom std_rest ex_reg vis _ _ v_alg.
Lemma rv_good : forall a s d pr, pok vis s -> pok vis d -> regular vdom std_rest (r_props (rv a s d pr)) /\ cls_of (r_props (rv a s d pr)) = Conn.
Proof.
  intros a s d pr Hs Hd. destruct (l_rect_ok _ _ _ _ _ _ _ _ _ v_laws (Some s) (Some d) pr Hs Hd) as [W C]. split; [|exact C]. split; [exact W|].
  destruct (make_props_cases vdom std_rest ex_reg vis _ _ (qa_alg _ _ _ _ _ _ v_alg) (Some s) (Some d) pr Hs Hd) as [H|H]; auto.
Qed.
Lemma rv_mem : forall a s d pr pt, pok vis s -> pok vis d -> a_space vdom pt -> pt @ r_props (rv a s d pr) ->
  pt_in (a_src ex_reg pt) s /\ pt_in (a_dst ex_reg pt) d.
Proof. intros a s d pr pt Hs Hd Sp H. destruct (proj1 (l_rect _ _ _ _ _ _ _ _ _ v_laws (Some s) (Some d) pr pt Hs Hd Sp) H) as (H1 & H2 & _). auto. Qed.
(** Policies built from such rules. *)
Inductive rv_of (ing : bool) (sel : peerset) : rule -> Prop :=
  RvOf : forall a s d pr, pok vis s -> pok vis d -> (if ing then d else s) = sel -> rv_of ing sel (rv a s d pr).
Lemma case_good : forall (ps : peerset) (p : policy), pok vis (p_selected p) -> (forall x, pt_in x (p_selected p) -> member ps x) ->
  Forall (rv_of true (p_selected p)) (p_ingress p) -> Forall (rv_of false (p_selected p)) (p_egress p) -> policy_good ex_reg vis ps p.
Proof.
  intros ps p K M F1 F2. rewrite Forall_forall in F1, F2. split; [apply policy_wf_regular; [|exact K]|split].
  - intros r Hr. apply in_app_or in Hr as [Hr|Hr]; [apply F1 in Hr|apply F2 in Hr]; destruct Hr as [a s d pr Hs Hd _]; apply rv_good; auto.
  - split; [|split; [|exact M]].
    + intros r pt Sp Hr H. apply F1 in Hr. destruct Hr as [a s d pr Hs Hd E]. rewrite <- E. apply (rv_mem a s d pr pt Hs Hd Sp H).
    + intros r pt Sp Hr H. apply F2 in Hr. destruct Hr as [a s d pr Hs Hd E]. rewrite <- E. apply (rv_mem a s d pr pt Hs Hd Sp H).
  - intros r Hr. apply in_app_or in Hr as [Hr|Hr]; [apply F1 in Hr|apply F2 in Hr]; destruct Hr as [a s d pr Hs Hd _]; apply rv_good; auto.
Qed.
Definition cfg (ps : peerset) (l : list policy) : config := Config ps [] (add_all pcont_init l).
Lemma case_plain : forall ps l, container vis ps -> (forall p, In p l -> policy_good ex_reg vis ps p /\ without_pass p) -> plain ex_reg vis (cfg ps l).
Proof.
  intros ps l HC H. split; [exact HC|]. split; [apply loaded_any|]. intros p Hp. apply H. apply (clone_list (Config ps [] pcont_init) l p Hp).
Qed.
End Rules.

(** ** The peers of the cases: three pods and a DNS entry out of the five registered peers *)
Definition q_vis : list peer := [pa; pb; pc; dns].
Definition pods : peerset := [pa; pb; pc].
Lemma q_container : container ex_reg q_vis.
Proof. intros p H. cbn in H. split; [cbn; tauto|]. destruct H as [<-|[<-|[<-|[<-|[]]]]]; reflexivity. Qed.
Lemma pods_in_reg : container ex_reg pods.
Proof. intros p H. cbn in H. split; [cbn; tauto|]. destruct H as [<-|[<-|[<-|[]]]]; reflexivity. Qed.
Lemma pods_container : container q_vis pods.
Proof. intros p H. cbn in H. split; [cbn; tauto|]. destruct H as [<-|[<-|[<-|[]]]]; reflexivity. Qed.
Lemma pods_self : container pods pods.
Proof. intros p H. cbn in H. split; [cbn; tauto|]. destruct H as [<-|[<-|[<-|[]]]]; reflexivity. Qed.
Lemma q_self : container q_vis q_vis.
Proof. intros p H. cbn in H. split; [cbn; tauto|]. destruct H as [<-|[<-|[<-|[<-|[]]]]]; reflexivity. Qed.
Lemma q_ne : q_vis <> []. Proof. discriminate. Qed.
Lemma pods_ne : pods <> []. Proof. discriminate. Qed.
Notation q_dom := (vdom q_vis).
Notation qA := (vA q_vis).
Notation qQ := (vQ q_vis).
Notation rq := (rv q_vis).
Local Opaque all_ips.
Ltac pokq := split;
  [intros l Hl; repeat (destruct Hl as [Hl|Hl]; [first [discriminate Hl|injection Hl as <-; apply all_ips_ipset]|]); destruct Hl
  |intros k n Hn; repeat (destruct Hn as [Hn|Hn]; [first [discriminate Hn|rewrite <- Hn; cbn; tauto]|]); destruct Hn].
Definition anyone : peerset := [pa; pb; pc; Block all_ips].
Lemma ok_any : pok q_vis anyone. Proof. pokq. Qed.
Lemma ok_a : pok q_vis [pa]. Proof. pokq. Qed.
Lemma ok_b : pok q_vis [pb]. Proof. pokq. Qed.
Lemma ok_c : pok q_vis [pc]. Proof. pokq. Qed.
Lemma ok_dns : pok q_vis [dns]. Proof. pokq. Qed.
Lemma ok_none : pok q_vis []. Proof. pokq. Qed.
Lemma ok_pods : pok q_vis pods. Proof. pokq. Qed.
Lemma ok_void : pok q_vis [Block []].
Proof. split; [intros l [H|[]]; injection H as <-; split; [exact I|intros y (i & Hi & _); destruct Hi]|intros k n [H|[]]; discriminate]. Qed.
Lemma ok_b' : pok pods [pb]. Proof. pokq. Qed.
Lemma ok_none' : pok pods []. Proof. pokq. Qed.
Lemma ok_ac' : pok pods [pa; pc]. Proof. pokq. Qed.
Lemma ok_pods' : pok pods pods. Proof. pokq. Qed.
Local Opaque pok.
Ltac okq := first [exact ok_a|exact ok_b|exact ok_c|exact ok_dns|exact ok_none|exact ok_any|exact ok_pods|exact ok_void|exact ok_b'|exact ok_none'|exact ok_ac'|exact ok_pods'].
Local Opaque c_rect.
Ltac memq := intros [?k ?n|?y] Hx; cbn [pt_in p_selected] in Hx; [cbn in Hx |- *; tauto|destruct Hx as (l & Hl & _); cbn in Hl; intuition discriminate].
Ltac nopass := intros ?C ?r ?Hr; cbn in Hr; repeat (destruct Hr as [<-|Hr]; [discriminate|]); destruct Hr.
Ltac good_of HV NE := split; [apply (case_good _ HV NE); [cbn [p_selected]; okq|memq|cbn [p_selected p_ingress]; repeat (constructor; [constructor; [okq|okq|reflexivity]|]); constructor
  |cbn [p_selected p_egress]; repeat (constructor; [constructor; [okq|okq|reflexivity]|]); constructor]|nopass].
Ltac goodq := good_of q_container q_ne.
Local Notation qgood := (policy_good ex_reg q_vis).
Local Notation qplain := (plain ex_reg q_vis).
Definition no6 (p : policy) : bool := false.
Ltac plainq := apply case_plain; [first [exact pods_container|exact q_self]|]; let p := fresh in let H := fresh in intros p H; cbn [In] in H; repeat (destruct H as [<-|H]; [goodq|]); destruct H.

(** Pod a accepts traffic from b only: all of it, TCP only, the rest only. *)
Definition from_b : policy := Policy "p" "ns" TK8s true false [pa] [rq Allow [pb] [pa] None] [] None Allow.
Definition tcp_b : policy := Policy "p" "ns" TK8s true false [pa] [rq Allow [pb] [pa] (Some true)] [] None Allow.
Definition rest_b : policy := Policy "q" "ns" TK8s true false [pa] [rq Allow [pb] [pa] (Some false)] [] None Allow.
Definition g_all : config := cfg pods [from_b].
Definition g_tcp : config := cfg pods [tcp_b].
Definition g_two : config := cfg pods [tcp_b; rest_b].
Lemma g_all_plain : qplain g_all. Proof. plainq. Qed.
Lemma g_tcp_plain : qplain g_tcp. Proof. plainq. Qed.
Lemma g_two_plain : qplain g_two. Proof. plainq. Qed.
Lemma one_answerable : forall g n pols, lays (g_pols g) = [(n, pols)] -> g_peers g = pods -> answerable ex_reg q_vis None g /\ answerable_captured ex_reg q_vis g.
Proof.
  intros g n pols E EP. assert (N : ~ has_hep (g_peers g)).
  { rewrite EP. intros ([k m|y] & Hx & Hh); [|destruct Hx]. cbn in Hx. cbn in Hh. destruct Hx as [X|[X|[X|[]]]]; injection X as <- <-; discriminate. }
  assert (S : single_layer g) by (exists n, pols; auto). split; [right; exact S|split; [exact N|right; exact S]].
Qed.
Lemma g_all_ans : answerable ex_reg q_vis None g_all /\ answerable_captured ex_reg q_vis g_all.
Proof. exact (one_answerable g_all LK8sCalico [from_b] eq_refl eq_refl). Qed.
Lemma g_tcp_ans : answerable ex_reg q_vis None g_tcp /\ answerable_captured ex_reg q_vis g_tcp.
Proof. exact (one_answerable g_tcp LK8sCalico [tcp_b] eq_refl eq_refl). Qed.
Lemma g_two_ans : answerable ex_reg q_vis None g_two /\ answerable_captured ex_reg q_vis g_two.
Proof. exact (one_answerable g_two LK8sCalico [tcp_b; rest_b] eq_refl eq_refl). Qed.

(** ** Deciding membership of concrete connections *)
Definition in_iset (x : Z) (l : iset) : bool := existsb (fun i => Z.leb (lo i) x && Z.leb x (hi i)) l.
Lemma in_iset_spec : forall x l, in_iset x l = true <-> mem x l.
Proof.
  intros x l. unfold in_iset, mem. rewrite existsb_exists. split; intros (i & Hi & H); exists i; (split; [exact Hi|]).
  - apply andb_true_iff in H as [H1 H2]. apply Z.leb_le in H1, H2. auto.
  - apply andb_true_iff. split; apply Z.leb_le; apply H.
Qed.
Definition in_val (x : Z) (a : val) : bool := match a with VI l | VN false l => in_iset x l | VN true l => negb (in_iset x l) end.
Lemma in_val_spec : forall x a, in_val x a = true <-> val_mem x a.
Proof.
  intros x [l|[|] l]; cbn [in_val val_mem]; try apply in_iset_spec. rewrite negb_true_iff, <- in_iset_spec. destruct (in_iset x l); intuition congruence.
Qed.
Fixpoint in_tree (ds : list dim) (p : dim -> Z) (h : hc val) {struct ds} : bool :=
  match ds with
  | [] => true
  | d :: ds => match h with Node _ _ ls => existsb (fun e => in_val (p d) (fst e) && in_tree ds p (snd e)) ls | _ => false end
  end.
Definition inside (p : dim -> Z) (h : hc val) : bool := in_tree (act_of h) p h.
Lemma inside_spec : forall p h, inside p h = true <-> p @ h.
Proof.
  intros p h. unfold inside, a_mem, HyperDims.denot, HyperFacts.denot. generalize (act_of h). intros ds. revert h. induction ds as [|d ds IH]; intros h; cbn [in_tree tmem]; [split; auto|].
  destruct h as [| |c a ls]; try (split; [discriminate|tauto]). rewrite existsb_exists. split.
  - intros ([v s] & H & E). cbn [fst snd] in E. apply andb_true_iff in E as [E1 E2]. exists v, s. split; [exact H|]. split; [apply in_val_spec, E1|apply IH, E2].
  - intros (v & s & H & E1 & E2). exists (v, s). split; [exact H|]. cbn [fst snd]. apply andb_true_iff. split; [apply in_val_spec, E1|apply IH, E2].
Qed.
Lemma inside_not : forall p h, inside p h = false <-> ~ p @ h.
Proof. intros p h. rewrite <- inside_spec. destruct (inside p h); intuition congruence. Qed.
Ltac yesq := apply inside_spec; vm_compute; reflexivity.
Ltac noq := apply inside_not; vm_compute; reflexivity.
Lemma q_conn_space : forall s d proto port, in_iset s (query_peers ex_reg q_vis) = true -> in_iset d (query_peers ex_reg q_vis) = true ->
  (0 <= proto <= 255)%Z -> (1 <= port <= 65535)%Z -> a_space q_dom (ex_conn s d proto port).
Proof.
  intros s d proto port Hs Hd Hp Hq e. apply in_iset_spec in Hs, Hd.
  do 3 (destruct e as [|e]; [cbn -[query_peers Z.le]; auto; try (exists (Ivl 0 255); split; [left; auto|cbn [lo hi]; lia])|]).
  do 2 (destruct e as [|e]; [exists (Ivl 1 65535); split; [left; auto|cbn [lo hi ex_conn]; lia]|]).
  destruct e as [|e]; [exists (Ivl 0 8); split; [left; auto|cbn [lo hi ex_conn]; lia]|].
  destruct e as [|e]; [intros H; apply mem_nil in H; auto|].
  destruct e as [|e]; [intros H; apply mem_nil in H; auto|].
  destruct e as [|e]; [exists (Ivl 0 254); split; [left; auto|cbn [lo hi ex_conn]; lia]|].
  destruct e as [|e]; [exists (Ivl 0 255); split; [left; auto|cbn [lo hi ex_conn]; lia]|].
  exists (Ivl 0 100000); split; [left; auto|cbn [lo hi ex_conn]; lia].
Qed.
Ltac spaceq := apply q_conn_space; [vm_compute; reflexivity..| |]; lia.
Local Opaque point_of_index idx a_mem.
Ltac looksq := unfold looks_at; rewrite ?src_of, ?dst_of, ?point_a, ?point_b, ?point_c, ?point_dns; cbn [named_dns is_addr v6]; split; [discriminate|split; [tauto|auto]].
Local Notation qlooks := (looks_at ex_reg no6).
Local Notation qconnects := (connects ex_reg q_vis).
Local Notation qcaptures := (captures ex_reg q_vis).

(** ** C29 *)
Lemma case_order : forall g1 g2 : config, map fst (policies (g_pols g1)) = map fst (policies (g_pols g2)) -> in_same_order ex_reg q_vis rid0 g1 g2.
Proof. intros g1 g2 E _. exact E. Qed.
Lemma case_order' : forall g1 g2 : config, pdict_eqb qA rid0 (policies (g_pols g1)) (policies (g_pols g2)) = false -> in_same_order ex_reg q_vis rid0 g1 g2.
Proof. intros g1 g2 E H. unfold same_policies in H. change (pdict_eqb qA rid0 (policies (g_pols g1)) (policies (g_pols g2)) = true) in H. congruence. Qed.
Lemma same_refl : forall (g1 g2 : config), g_peers g1 = g_peers g2 -> g_services g1 = g_services g2 -> same_peers g1 g2.
Proof. intros g1 g2 E1 E2. unfold same_peers. rewrite E1, E2. split; intros; tauto. Qed.
Lemma all_good : forall g, qplain g -> good ex_reg q_vis g.
Proof. intros g H. apply (plain_good ex_reg q_vis g H). Qed.
(** One policy against the same connections split over two policies; and against a part of them. *)
Example ex_C29 : good ex_reg q_vis g_all /\ good ex_reg q_vis g_two /\ good ex_reg q_vis g_tcp /\
  answerable ex_reg q_vis None g_all /\ answerable ex_reg q_vis None g_two /\ answerable ex_reg q_vis None g_tcp /\
  in_same_order ex_reg q_vis rid0 g_all g_two /\ in_same_order ex_reg q_vis rid0 g_all g_tcp /\
  ignores6 no6 true g_all g_two /\ same_peers g_all g_two /\
  a_bool (equivalence qA qQ no6 rid0 true g_all g_two None) = true /\
  let a := equivalence qA qQ no6 rid0 true g_all g_tcp None in
  let pt := ex_conn (idx pb) (idx pa) 17 53 in
  a_bool a = false /\ a_num a = 1%Z /\ qlooks true g_all g_tcp pt /\ qconnects None g_all pt /\ ~ qconnects None g_tcp pt /\
  map (inside pt) (a_expl a) = [true; false].
Proof.
  split; [apply all_good, g_all_plain|]. split; [apply all_good, g_two_plain|]. split; [apply all_good, g_tcp_plain|].
  split; [exact (proj1 g_all_ans)|]. split; [exact (proj1 g_two_ans)|]. split; [exact (proj1 g_tcp_ans)|].
  split; [apply case_order'; vm_compute; reflexivity|]. split; [apply case_order'; vm_compute; reflexivity|].
  split; [split; [|split]; auto|]. split; [apply same_refl; reflexivity|].
  split; [vm_compute; reflexivity|]. cbv zeta. split; [vm_compute; reflexivity|]. split; [vm_compute; reflexivity|].
  split; [looksq|]. split; [yesq|]. split; [noq|]. vm_compute. reflexivity.
Qed.
(** An object with active dimensions but no cube holds nothing. *)
Definition void (h : hc val) : bool := match h with Node _ (_ :: _) [] => true | _ => false end.
Lemma void_none : forall h pt, void h = true -> ~ pt @ h.
Proof. intros [| |c [|d a] [|e l]] pt E; try discriminate. apply inside_not. reflexivity. Qed.
Local Opaque void.
(** Finding F35.  If IPv6 addresses are not excluded, "not equivalent" is answered for configurations allowing the same
    connections, with nothing to explain it: the two objects differ in the classes of their sub-objects only (F2).  Both
    have a sidecar and an authorization policy letting TCP through to b only; the second has a vacuous policy besides. *)
Notation rp := (rv pods).
Definition yes6 (p : policy) : bool := true.
Definition f35_sc : policy := Policy "s" "ns" TSidecar false true pods [] [rp Allow pods [pb] (Some true)] None Allow.
Definition f35_ap : policy := Policy "ap" "ns" TIstioAP true false [pa; pc] [] [] None Allow.
Definition vacuous_k8s : policy := Policy "i" "ns" TK8s true false [] [] [] None Allow.
Ltac goodp := good_of pods_in_reg pods_ne.
Ltac plainp := apply case_plain; [exact pods_self|]; let p := fresh in let H := fresh in intros p H; cbn [In] in H; repeat (destruct H as [<-|H]; [goodp|]); destruct H.
Definition f35_g1 : config := cfg pods [f35_sc; f35_ap].
Definition f35_g2 : config := cfg pods [f35_sc; f35_ap; vacuous_k8s].
Lemma f35_plain1 : plain ex_reg pods f35_g1. Proof. plainp. Qed.
Lemma f35_plain2 : plain ex_reg pods f35_g2. Proof. plainp. Qed.
Lemma p_conn_space : forall s d proto port, in_iset s (query_peers ex_reg pods) = true -> in_iset d (query_peers ex_reg pods) = true ->
  (0 <= proto <= 255)%Z -> (1 <= port <= 65535)%Z -> a_space (vdom pods) (ex_conn s d proto port).
Proof.
  intros s d proto port Hs Hd Hp Hq e. apply in_iset_spec in Hs, Hd.
  do 3 (destruct e as [|e]; [cbn -[query_peers Z.le]; auto; try (exists (Ivl 0 255); split; [left; auto|cbn [lo hi]; lia])|]).
  do 2 (destruct e as [|e]; [exists (Ivl 1 65535); split; [left; auto|cbn [lo hi ex_conn]; lia]|]).
  destruct e as [|e]; [exists (Ivl 0 8); split; [left; auto|cbn [lo hi ex_conn]; lia]|].
  destruct e as [|e]; [intros H; apply mem_nil in H; auto|].
  destruct e as [|e]; [intros H; apply mem_nil in H; auto|].
  destruct e as [|e]; [exists (Ivl 0 254); split; [left; auto|cbn [lo hi ex_conn]; lia]|].
  destruct e as [|e]; [exists (Ivl 0 255); split; [left; auto|cbn [lo hi ex_conn]; lia]|].
  exists (Ivl 0 100000); split; [left; auto|cbn [lo hi ex_conn]; lia].
Qed.
Lemma f35_ans : forall g, connects ex_reg pods None g (ex_conn (idx pa) (idx pb) 6 80) -> answerable ex_reg pods None g.
Proof. intros g H. left. exists (ex_conn (idx pa) (idx pb) 6 80). split; [|exact H]. apply p_conn_space; [vm_compute; reflexivity..| |]; lia. Qed.
Lemma prop_agree : forall D1 D2 Lk C1 C2 : Prop, (D1 <-> Lk /\ C1 /\ ~ C2) -> (D2 <-> Lk /\ C2 /\ ~ C1) -> ~ D1 -> ~ D2 ->
  (C1 \/ ~ C1) -> (C2 \/ ~ C2) -> Lk -> (C1 <-> C2).
Proof. intros. tauto. Qed.
Theorem C29_all_addresses_refuted :
  let a := equivalence (vA pods) (vQ pods) yes6 rid0 true f35_g1 f35_g2 None in
  good ex_reg pods f35_g1 /\ good ex_reg pods f35_g2 /\ answerable ex_reg pods None f35_g1 /\ answerable ex_reg pods None f35_g2 /\
  in_same_order ex_reg pods rid0 f35_g1 f35_g2 /\ same_peers f35_g1 f35_g2 /\
  (forall pt, a_space (vdom pods) pt -> looks_at ex_reg yes6 true f35_g1 f35_g2 pt ->
     (connects ex_reg pods None f35_g1 pt <-> connects ex_reg pods None f35_g2 pt)) /\
  a_bool a = false /\ forall d, In d (a_expl a) -> hbool d = false /\ forall pt, ~ pt @ d.
Proof.
  cbv zeta. pose proof (plain_good ex_reg pods _ f35_plain1) as G1. pose proof (plain_good ex_reg pods _ f35_plain2) as G2.
  assert (A1 : answerable ex_reg pods None f35_g1) by (apply f35_ans; yesq).
  assert (A2 : answerable ex_reg pods None f35_g2) by (apply f35_ans; yesq).
  assert (OR : in_same_order ex_reg pods rid0 f35_g1 f35_g2).
  { intros H. exfalso. assert (E : pdict_eqb (vA pods) rid0 (policies (g_pols f35_g1)) (policies (g_pols f35_g2)) = false) by (vm_compute; reflexivity).
    unfold same_policies in H. change (pdict_eqb (vA pods) rid0 (policies (g_pols f35_g1)) (policies (g_pols f35_g2)) = true) in H. congruence. }
  assert (SP : same_peers f35_g1 f35_g2) by (apply same_refl; reflexivity).
  assert (EB : a_bool (equivalence (vA pods) (vQ pods) yes6 rid0 true f35_g1 f35_g2 None) = false) by (vm_compute; reflexivity).
  assert (EE : forallb void (a_expl (equivalence (vA pods) (vQ pods) yes6 rid0 true f35_g1 f35_g2 None)) = true) by (vm_compute; reflexivity).
  assert (EH : forallb (fun d => negb (hbool d)) (a_expl (equivalence (vA pods) (vQ pods) yes6 rid0 true f35_g1 f35_g2 None)) = true) by (vm_compute; reflexivity).
  pose proof (C29_equivalence ex_reg pods ex_reg_ok pods_in_reg pods_ne rid0 yes6 rid_sound true f35_g1 f35_g2 None G1 G2 A1 A2 OR) as T.
  cbv zeta in T. destruct T as [_ T]. specialize (T SP). destruct T as (_ & _ & _ & _ & T). specialize (T EB). destruct T as (d1 & d2 & E & T).
  change (a_expl (equivalence (vA pods) (vQ pods) yes6 rid0 true f35_g1 f35_g2 None) = [d1; d2]) in E.
  assert (V : forall d, In d (a_expl (equivalence (vA pods) (vQ pods) yes6 rid0 true f35_g1 f35_g2 None)) -> hbool d = false /\ forall pt, ~ pt @ d).
  { intros d Hd. rewrite forallb_forall in EE, EH. split; [apply negb_true_iff; exact (EH d Hd)|]. intros pt. apply void_none. exact (EE d Hd). }
  split; [exact G1|]. split; [exact G2|]. split; [exact A1|]. split; [exact A2|]. split; [exact OR|]. split; [exact SP|].
  split; [|split; [exact EB|exact V]]. intros pt Sp Lk. destruct (T pt Sp) as [T1 T2].
  rewrite E in V. destruct (V d1 (or_introl eq_refl)) as [_ N1]. destruct (V d2 (or_intror (or_introl eq_refl))) as [_ N2].
  assert (D1 : connects ex_reg pods None f35_g1 pt \/ ~ connects ex_reg pods None f35_g1 pt).
  { unfold connects. destruct (inside pt (all_allowed (config_conns (vA pods) (g_peers f35_g1) (lays (g_pols f35_g1)) only_all_allowed))) eqn:X;
      [left; apply inside_spec; exact X|right; apply inside_not; exact X]. }
  assert (D2 : connects ex_reg pods None f35_g2 pt \/ ~ connects ex_reg pods None f35_g2 pt).
  { unfold connects. destruct (inside pt (all_allowed (config_conns (vA pods) (g_peers f35_g2) (lays (g_pols f35_g2)) only_all_allowed))) eqn:X;
      [left; apply inside_spec; exact X|right; apply inside_not; exact X]. }
  exact (prop_agree _ _ _ _ _ T1 T2 (N1 pt) (N2 pt) D1 D2 Lk).
Qed.

(** Finding F38.  Two layers whose allowed connections exclude each other: the intersection has no cubes but only two
    active dimensions, and filtering it gives a "true" object (F1).  Hence [answerable]. *)
Definition f38_k1 : policy := Policy "k1" "ns" TK8s true true [pa] [rp Allow anyone [pa] (Some true)] [rp Allow [pa] [pa] (Some true)] None Allow.
Definition f38_k2 : policy := Policy "k2" "ns" TK8s true true [pb; pc] [] [rp Allow [pb; pc] [pa] (Some true)] None Allow.
Definition f38_k3 : policy := Policy "k3" "ns" TK8s true true pods [] [] None Allow.
Definition f38_g1 : config := cfg pods [f38_k1; f38_k2; f35_sc; f35_ap].
Definition f38_g2 : config := cfg pods [f38_k3].
Lemma ok_bc' : pok pods [pb; pc]. Proof. Local Transparent pok. pokq. Qed.
Lemma ok_a' : pok pods [pa]. Proof. pokq. Qed.
Lemma ok_any' : pok pods anyone. Proof. pokq. Qed.
Local Opaque pok.
Ltac okq ::= first [exact ok_a|exact ok_b|exact ok_c|exact ok_dns|exact ok_none|exact ok_any|exact ok_pods|exact ok_void|exact ok_b'|exact ok_none'|exact ok_ac'|exact ok_pods'|exact ok_bc'|exact ok_a'|exact ok_any'].
Lemma f38_plain1 : plain ex_reg pods f38_g1. Proof. plainp. Qed.
Lemma f38_plain2 : plain ex_reg pods f38_g2. Proof. plainp. Qed.
Theorem C29_nothing_allowed_refuted :
  good ex_reg pods f38_g1 /\ good ex_reg pods f38_g2 /\ same_peers f38_g1 f38_g2 /\
  (forall pt, ~ connects ex_reg pods None f38_g1 pt) /\ (forall pt, ~ connects ex_reg pods None f38_g2 pt) /\
  let a := equivalence (vA pods) (vQ pods) yes6 rid0 true f38_g1 f38_g2 None in
  a_bool a = false /\ List.length (filter hbool (a_expl a)) = 1.
Proof.
  split; [exact (plain_good ex_reg pods _ f38_plain1)|]. split; [exact (plain_good ex_reg pods _ f38_plain2)|]. split; [apply same_refl; reflexivity|].
  assert (V1 : void (all_conns_of (vA pods) f38_g1 None) = true) by (vm_compute; reflexivity).
  assert (V2 : void (all_conns_of (vA pods) f38_g2 None) = true) by (vm_compute; reflexivity).
  split; [intros pt; exact (void_none _ pt V1)|]. split; [intros pt; exact (void_none _ pt V2)|].
  cbv zeta. split; vm_compute; reflexivity.
Qed.

(** Finding F31.  Policy containers are compared as dictionaries, but the order in which Calico policies of equal order
    were read decides. *)
Definition deny_b : policy := Policy "d" "ns" TCalico true false [pa] [rq Deny [pb] [pa] None] [] (Some 5%Z) Allow.
Definition allow_b : policy := Policy "a" "ns" TCalico true false [pa] [rq Allow [pb] [pa] None] [] (Some 5%Z) Allow.
Definition f31_g1 : config := cfg pods [deny_b; allow_b].
Definition f31_g2 : config := cfg pods [allow_b; deny_b].
Theorem C29_insertion_order_refuted :
  qplain f31_g1 /\ qplain f31_g2 /\ answerable ex_reg q_vis None f31_g1 /\ answerable ex_reg q_vis None f31_g2 /\ same_peers f31_g1 f31_g2 /\
  let pt := ex_conn (idx pb) (idx pa) 6 80 in
  a_space q_dom pt /\ qlooks true f31_g1 f31_g2 pt /\ ~ qconnects None f31_g1 pt /\ qconnects None f31_g2 pt /\
  a_bool (equivalence qA qQ no6 rid0 true f31_g1 f31_g2 None) = true.
Proof.
  split; [plainq|]. split; [plainq|].
  split; [exact (proj1 (one_answerable f31_g1 LK8sCalico [deny_b; allow_b] eq_refl eq_refl))|].
  split; [exact (proj1 (one_answerable f31_g2 LK8sCalico [allow_b; deny_b] eq_refl eq_refl))|].
  split; [apply same_refl; reflexivity|]. cbv zeta. split; [spaceq|]. split; [looksq|]. split; [noq|]. split; [yesq|]. vm_compute. reflexivity.
Qed.

(** ** C30 *)
Lemma from_containment : forall h6 g1 g2, qplain g1 -> qplain g2 -> answerable ex_reg q_vis None g1 -> answerable ex_reg q_vis None g2 ->
  a_bool (containment qA qQ h6 true true false g1 g2) = true -> all_contained ex_reg q_vis h6 true g1 g2.
Proof.
  intros h6 g1 g2 P1 P2 A1 A2 E.
  apply (C30_containment ex_reg q_vis ex_reg_ok q_container q_ne h6 true true g1 g2 (all_good _ P1) (all_good _ P2) A1 A2). exact E.
Qed.
Example ex_C30 : qplain g_tcp /\ qplain g_all /\ answerable ex_reg q_vis None g_tcp /\ answerable ex_reg q_vis None g_all /\
  in_same_order ex_reg q_vis rid0 g_tcp g_all /\ ~ same_policies ex_reg q_vis rid0 g_tcp g_all /\
  a_bool (containment qA qQ no6 true true false g_tcp g_all) = true /\
  a_bool (containment qA qQ no6 true true false g_all g_tcp) = false /\
  map (inside (ex_conn (idx pb) (idx pa) 17 53)) (a_expl (containment qA qQ no6 true true false g_all g_tcp)) = [true] /\
  a_num (two_way qA qQ no6 rid0 true false g_tcp g_all) = 2%Z /\ a_num (two_way qA qQ no6 rid0 true false g_all g_tcp) = 1%Z /\
  a_num (two_way qA qQ no6 rid0 true false g_all g_two) = 3%Z.
Proof.
  assert (E : pdict_eqb qA rid0 (policies (g_pols g_tcp)) (policies (g_pols g_all)) = false) by (vm_compute; reflexivity).
  split; [exact g_tcp_plain|]. split; [exact g_all_plain|]. split; [exact (proj1 g_tcp_ans)|]. split; [exact (proj1 g_all_ans)|].
  split; [exact (case_order' _ _ E)|]. split; [|repeat apply conj; vm_compute; reflexivity].
  unfold same_policies. change (~ pdict_eqb qA rid0 (policies (g_pols g_tcp)) (policies (g_pols g_all)) = true). rewrite E. discriminate.
Qed.
(** Finding F29.  In scheme mode (no command line) mutual containment is reported by the number 3, except if the policies
    are the same, when it is 0, the number for "neither contains the other". *)
Theorem C30_same_policies_refuted : qplain g_all /\ answerable ex_reg q_vis None g_all /\
  all_contained ex_reg q_vis no6 true g_all g_all /\ a_num (two_way qA qQ no6 rid0 true false g_all g_all) = 0%Z.
Proof.
  split; [exact g_all_plain|]. split; [exact (proj1 g_all_ans)|]. split; [|vm_compute; reflexivity].
  split; [auto|]. intros pt _ _ H. exact H.
Qed.

(** ** C31 *)
Definition only_c : policy := Policy "p" "ns" TK8s true false [pc] [] [] None Allow.
Definition g_c : config := cfg pods [only_c].
Definition none_a : policy := Policy "p" "ns" TK8s true false [pa] [] [] None Allow.
Definition g_none : config := cfg pods [none_a].
Lemma g_c_plain : qplain g_c. Proof. plainq. Qed.
Lemma g_none_plain : qplain g_none. Proof. plainq. Qed.
Lemma g_c_ans : answerable ex_reg q_vis None g_c /\ answerable_captured ex_reg q_vis g_c.
Proof. exact (one_answerable g_c LK8sCalico [only_c] eq_refl eq_refl). Qed.
Lemma g_none_ans : answerable ex_reg q_vis None g_none /\ answerable_captured ex_reg q_vis g_none.
Proof. exact (one_answerable g_none LK8sCalico [none_a] eq_refl eq_refl). Qed.
Example ex_C31 : qplain g_tcp /\ qplain g_all /\ qplain g_none /\ answerable_captured ex_reg q_vis g_tcp /\ answerable_captured ex_reg q_vis g_all /\
  answerable ex_reg q_vis None g_none /\ without_gateways g_all = g_all /\ has_plain_layer g_all /\ same_peers g_all g_none /\
  a_bool (interferes qA qQ no6 rid0 true true g_all g_tcp) = true /\ a_bool (interferes qA qQ no6 rid0 true true g_tcp g_all) = false /\
  a_bool (intersects qA qQ no6 rid0 true g_all g_tcp) = true /\ a_bool (intersects qA qQ no6 rid0 true g_all g_none) = false /\
  a_bool (permits qA qQ no6 rid0 true true g_tcp g_all) = true /\ a_bool (permits qA qQ no6 rid0 true true g_all g_tcp) = false /\
  a_num (forbids qA qQ no6 rid0 true g_all g_none) = 0%Z /\ a_num (forbids qA qQ no6 rid0 true g_all g_tcp) = 1%Z.
Proof.
  split; [exact g_tcp_plain|]. split; [exact g_all_plain|]. split; [exact g_none_plain|]. split; [exact (proj2 g_tcp_ans)|]. split; [exact (proj2 g_all_ans)|].
  split; [exact (proj1 g_none_ans)|]. split; [reflexivity|].
  split; [split; [discriminate|exists LK8sCalico, [from_b]; split; [left; reflexivity|split; discriminate]]|]. split; [apply same_refl; reflexivity|].
  repeat apply conj; vm_compute; reflexivity.
Qed.
(** Finding F30.  A configuration interferes with another although the other allows everything it allows: only explicitly
    allowed connections are compared. *)
Theorem C31_interferes_with_default_refuted : qplain g_all /\ qplain g_c /\ answerable_captured ex_reg q_vis g_all /\ answerable_captured ex_reg q_vis g_c /\ same_peers g_all g_c /\
  a_bool (interferes qA qQ no6 rid0 true true g_all g_c) = true /\
  let pt := ex_conn (idx pb) (idx pa) 6 80 in
  qcaptures g_all pt /\ qconnects None g_c pt /\
  forall pt, a_space q_dom pt -> qlooks true g_all g_c pt -> qcaptures g_all pt -> qconnects None g_c pt.
Proof.
  split; [exact g_all_plain|]. split; [exact g_c_plain|]. split; [exact (proj2 g_all_ans)|]. split; [exact (proj2 g_c_ans)|].
  split; [apply same_refl; reflexivity|]. split; [vm_compute; reflexivity|]. cbv zeta. split; [yesq|]. split; [yesq|].
  assert (HP : has_plain_layer g_all) by (split; [discriminate|exists LK8sCalico, [from_b]; split; [left; reflexivity|split; discriminate]]).
  assert (SP : same_peers g_all g_c) by (apply same_refl; reflexivity).
  assert (EB : a_bool (permits qA qQ no6 rid0 true true g_all g_c) = true) by (vm_compute; reflexivity).
  pose proof (C31_permits ex_reg q_vis ex_reg_ok q_container q_ne rid0 no6 true true g_all g_c) as T. cbv zeta in T.
  change (without_gateways g_all) with g_all in T.
  destruct (T (all_good _ g_all_plain) (all_good _ g_c_plain) (proj2 g_all_ans) (proj1 g_c_ans) HP SP) as [[T1 _] _].
  exact (T1 EB).
Qed.

(** ** C32 *)
Lemma no_istio : forall g1 g2 : config, map fst (lays (g_pols g1)) = [LK8sCalico] -> map fst (lays (g_pols g2)) = [LK8sCalico] -> agree_on_istio g1 g2.
Proof.
  intros g1 g2 E1 E2. left. unfold istio_like. split; intros (n & pols & H & E); exfalso; apply (in_map fst) in H; cbn [fst] in H.
  - rewrite E1 in H. destruct H as [<-|[]]. destruct E; discriminate.
  - rewrite E2 in H. destruct H as [<-|[]]. destruct E; discriminate.
Qed.
Example ex_C32 : qplain g_all /\ qplain g_tcp /\ answerable ex_reg q_vis None g_all /\ answerable ex_reg q_vis None g_tcp /\
  in_same_order ex_reg q_vis rid0 g_all g_tcp /\ agree_on_istio g_all g_tcp /\
  a_bool (semantic_diff qA qQ no6 rid0 true true g_all g_tcp) = false /\ a_num (semantic_diff qA qQ no6 rid0 true false g_all g_tcp) = 1%Z /\
  option_map (inside (ex_conn (idx pb) (idx pa) 17 53)) (lost_set ex_reg q_vis no6 true g_all g_tcp Chg31) = Some true /\
  a_bool (semantic_diff qA qQ no6 rid0 true true g_all g_two) = true.
Proof.
  split; [exact g_all_plain|]. split; [exact g_tcp_plain|]. split; [exact (proj1 g_all_ans)|]. split; [exact (proj1 g_tcp_ans)|].
  split; [apply case_order'; vm_compute; reflexivity|]. split; [apply no_istio; reflexivity|].
  repeat apply conj; vm_compute; reflexivity.
Qed.
(** A pod less: its connections are lost, in the categories for removed peers. *)
Example ex_C32_peers : qplain g_all /\ qplain (cfg [pa; pb] [from_b]) /\ agree_on_istio g_all (cfg [pa; pb] [from_b]) /\
  filter (fun k => reported qA (lost_set ex_reg q_vis no6 true g_all (cfg [pa; pb] [from_b]) k)) categories = [Lost12; Lost21] /\
  filter (fun k => reported qA (gained_set ex_reg q_vis no6 true (cfg [pa; pb] [from_b]) g_all k)) categories = [New41; New52].
Proof.
  split; [exact g_all_plain|]. split.
  { apply case_plain; [intros p H; cbn in H; split; [cbn; tauto|]; destruct H as [<-|[<-|[]]]; reflexivity|]. intros p [<-|[]]. goodq. }
  split; [apply no_istio; reflexivity|]. repeat apply conj; vm_compute; reflexivity.
Qed.
(** Finding F36.  Differences between peers no policy selects are not looked for; an Istio layer restricts such
    connections to DNS entries to TCP. *)
Definition vacuous_istio : policy := Policy "i" "ns" TIstioAP true false [] [] [] None Deny.
Definition f36_g1 : config := cfg q_vis [].
Definition f36_g2 : config := cfg q_vis [vacuous_istio].
Lemma q_ans : forall g, qconnects None g (ex_conn (idx pa) (idx pb) 6 80) -> answerable ex_reg q_vis None g.
Proof. intros g H. left. exists (ex_conn (idx pa) (idx pb) 6 80). split; [spaceq|exact H]. Qed.
Theorem C32_unselected_peers_refuted : qplain f36_g1 /\ qplain f36_g2 /\ answerable ex_reg q_vis None f36_g1 /\ answerable ex_reg q_vis None f36_g2 /\
  in_same_order ex_reg q_vis rid0 f36_g1 f36_g2 /\
  let pt := ex_conn (idx pa) (idx dns) 17 53 in
  a_space q_dom pt /\ qlooks true f36_g1 f36_g2 pt /\ qconnects None f36_g1 pt /\ ~ qconnects None f36_g2 pt /\
  a_bool (semantic_diff qA qQ no6 rid0 true true f36_g1 f36_g2) = true.
Proof.
  split; [plainq|]. split; [plainq|]. split; [apply q_ans; yesq|]. split; [apply q_ans; yesq|].
  split; [apply case_order'; vm_compute; reflexivity|]. cbv zeta. split; [spaceq|]. split; [looksq|]. split; [yesq|]. split; [noq|]. vm_compute. reflexivity.
Qed.

(** ** C33 *)
Definition tcp_q : policy := Policy "q" "ns" TK8s true false [pa] [rq Allow [pb] [pa] (Some true)] [] None Allow.
Definition g_red : config := cfg pods [from_b; tcp_q].
Definition both_rules : policy := Policy "p" "ns" TK8s true false [pa] [rq Allow [pb] [pa] None; rq Allow [pb] [pa] (Some true)] [] None Allow.
Definition g_rules : config := cfg pods [both_rules].
Lemma pods_pod : forall l, has_pod (cfg pods l).
Proof. intros l. exists (PN 0 "ns/a"). split; [left; reflexivity|discriminate]. Qed.
Example ex_C33 : qplain g_red /\ has_pod g_red /\ In tcp_q (policy_list g_red) /\ ignores6 no6 true g_red g_red /\
  redundant qA qQ no6 rid0 g_red LK8sCalico tcp_q = true /\ redundant qA qQ no6 rid0 g_red LK8sCalico from_b = false /\
  a_num (redundancy qA qQ no6 rid0 g_red) = 1%Z.
Proof.
  split; [plainq|]. split; [apply pods_pod|]. split; [right; left; reflexivity|]. split; [split; [|split]; auto|].
  repeat apply conj; vm_compute; reflexivity.
Qed.
Example ex_C33_rule : qplain g_rules /\ has_pod g_rules /\ unique_rule ex_reg q_vis rid0 both_rules true (rq Allow [pb] [pa] (Some true)) /\
  rule_redundant qA qQ no6 rid0 g_rules LK8sCalico both_rules true (rq Allow [pb] [pa] (Some true)) = true /\
  rule_redundant qA qQ no6 rid0 g_rules LK8sCalico both_rules true (rq Allow [pb] [pa] None) = false /\
  redundant_rules qA qQ no6 rid0 g_rules LK8sCalico both_rules true = [2].
Proof.
  split; [plainq|]. split; [apply pods_pod|]. split; [|repeat apply conj; vm_compute; reflexivity].
  exists [rq Allow [pb] [pa] None], []. split; [reflexivity|]. intros s [<-|[]]. vm_compute. reflexivity.
Qed.
Definition twins : policy := Policy "p" "ns" TK8s true false [pa] [rq Allow [pb] [pa] None; rq Allow [pb] [pa] None] [] None Allow.
Example ex_C33_twin : qplain (cfg pods [twins]) /\ redundant_rules qA qQ no6 rid0 (cfg pods [twins]) LK8sCalico twins true = [1; 2].
Proof. split; [plainq|]. vm_compute. reflexivity. Qed.
(** Finding F32.  For Calico a rule with a twin is reported redundant although its removal changes what is allowed. *)
Definition f32_p : policy := Policy "p" "ns" TCalico true false [pa] [rq Allow [pb] [pa] None; rq Deny [pb] [pa] None; rq Allow [pb] [pa] None] [] None Allow.
Definition f32_p' : policy := with_rules f32_p true [rq Deny [pb] [pa] None; rq Allow [pb] [pa] None].
Theorem C33_calico_twin_refuted : qplain (cfg pods [f32_p]) /\
  In 1 (redundant_rules qA qQ no6 rid0 (cfg pods [f32_p]) LK8sCalico f32_p true) /\
  let pt := ex_conn (idx pb) (idx pa) 6 80 in
  a_space q_dom pt /\ qconnects (Some LK8sCalico) (cfg pods [f32_p]) pt /\ ~ qconnects (Some LK8sCalico) (cfg pods [f32_p']) pt.
Proof.
  split; [plainq|]. assert (E : redundant_rules qA qQ no6 rid0 (cfg pods [f32_p]) LK8sCalico f32_p true = [1; 2; 3]) by (vm_compute; reflexivity).
  split; [rewrite E; left; reflexivity|]. cbv zeta. split; [spaceq|]. split; [yesq|]. noq.
Qed.
(** Finding F28.  The policy without the rule is put behind the policies of equal order before comparing: a rule is
    reported redundant although removing it in place changes what is allowed. *)
Definition f28_p : policy := Policy "p" "ns" TCalico true false [pa] [rq Deny [pb] [pa] (Some true); rq Allow [pb] [pa] None] [] (Some 5%Z) Allow.
Definition f28_r : policy := Policy "r" "ns" TCalico true false [pa] [rq Deny [pb] [pa] (Some true)] [] (Some 5%Z) Allow.
Definition f28_p' : policy := with_rules f28_p true [rq Allow [pb] [pa] None].
Theorem C33_moved_policy_refuted : qplain (cfg pods [f28_p; f28_r]) /\
  redundant_rules qA qQ no6 rid0 (cfg pods [f28_p; f28_r]) LK8sCalico f28_p true = [1] /\
  let pt := ex_conn (idx pb) (idx pa) 6 80 in
  a_space q_dom pt /\ ~ qconnects (Some LK8sCalico) (cfg pods [f28_p; f28_r]) pt /\ qconnects (Some LK8sCalico) (cfg pods [f28_p'; f28_r]) pt.
Proof. split; [plainq|]. split; [vm_compute; reflexivity|]. cbv zeta. split; [spaceq|]. split; [noq|]. yesq. Qed.
(** Finding F7.  The policies listed as redundant are those of the last layer. *)
Definition from_b2 : policy := Policy "p2" "ns" TK8s true false [pa] [rq Allow [pb] [pa] None] [] None Allow.
Definition f7_g : config := cfg pods [from_b; from_b2; vacuous_istio].
Theorem C33_listed_policies_refuted : qplain f7_g /\
  redundant qA qQ no6 rid0 f7_g LK8sCalico from_b = true /\ redundant qA qQ no6 rid0 f7_g LK8sCalico from_b2 = true /\
  red_count (redundancy_state qA qQ no6 rid0 f7_g) = 2 /\ red_listed (redundancy_state qA qQ no6 rid0 f7_g) = [].
Proof. split; [plainq|]. repeat apply conj; vm_compute; reflexivity. Qed.

(** ** C34 *)
Example ex_C34_disjointness : qplain g_two /\ distinct_policies ex_reg q_vis rid0 g_two /\
  overlaps qA rid0 g_two = [(rest_b, tcp_b)] /\ a_bool (disjointness qA rid0 g_two) = false /\
  a_bool (disjointness qA rid0 (cfg pods [from_b; Policy "c" "ns" TK8s true false [pc] [] [] None Allow])) = true.
Proof.
  split; [exact g_two_plain|]. split; [|repeat apply conj; vm_compute; reflexivity].
  intros p q Hp Hq E. destruct Hp as [<-|[<-|[]]], Hq as [<-|[<-|[]]]; try reflexivity; exfalso; vm_compute in E; discriminate.
Qed.
(** Finding F34.  Equality of policies ignores their kind: the overlap of policies differing in it only is missed. *)
Definition f34_p : policy := Policy "p" "" TCalicoGlobal true false [pa] [rq Allow [pb] [pa] None] [] None Allow.
Definition f34_q : policy := Policy "p" "" TCalicoProfile true false [pa] [rq Allow [pb] [pa] None] [] None Allow.
Theorem C34_kinds_refuted : qplain (cfg pods [f34_p; f34_q]) /\ f34_p <> f34_q /\
  (exists pols, queried (cfg pods [f34_p; f34_q]) LK8sCalico pols /\ earlier f34_p f34_q pols) /\
  pt_in (PN 0 "ns/a") (p_selected f34_p) /\ pt_in (PN 0 "ns/a") (p_selected f34_q) /\
  a_bool (disjointness qA rid0 (cfg pods [f34_p; f34_q])) = true.
Proof.
  split; [plainq|]. split; [discriminate|]. split; [|split; [left; reflexivity|split; [left; reflexivity|vm_compute; reflexivity]]].
  exists [f34_p; f34_q]. split; [split; [left; reflexivity|split; discriminate]|]. exists [], [], []. reflexivity.
Qed.
Definition empty_pol : policy := Policy "e" "ns" TK8s true false [pa] [rq Allow [] [pa] None; rq Allow [pb] [pa] None] [] None Allow.
Example ex_C34_emptiness : blocks_inhabited (cfg pods [empty_pol]) /\ a_bool (@emptiness (hc val) (cfg pods [empty_pol])) = true /\
  empty_rules empty_pol true = [1].
Proof.
  split; [|split; vm_compute; reflexivity]. intros n pols p H Hp. destruct H as [H|[]]. injection H as <- <-. destruct Hp as [<-|[]].
  assert (NV : forall s : peerset, existsb (fun q => match q with Block _ => true | _ => false end) s = false -> no_void s).
  { intros s E l Hl. exfalso. assert (X : existsb (fun q => match q with Block _ => true | _ => false end) s = true) by (apply existsb_exists; exists (Block l); auto). congruence. }
  split; [apply NV; reflexivity|]. intros r Hr. cbn in Hr. destruct Hr as [<-|[<-|[]]]; split; apply NV; reflexivity.
Qed.
(** Finding F39.  A rule whose only peer is an address block without addresses (all of it excepted) is not reported. *)
Definition f39_p : policy := Policy "e" "ns" TK8s true false [pa] [rq Allow [Block []] [pa] None] [] None Allow.
Theorem C34_excepted_block_refuted : qplain (cfg pods [f39_p]) /\ (exists r, In r (p_ingress f39_p) /\ empty_rule f39_p r) /\
  a_bool (@emptiness (hc val) (cfg pods [f39_p])) = false.
Proof.
  split; [plainq|]. split; [|vm_compute; reflexivity]. exists (rq Allow [Block []] [pa] None). split; [left; reflexivity|].
  left. intros [k n|y]; cbn [pt_in]; [intros [H|[]]; discriminate|]. intros (l & [H|[]] & (i & Hi & _)). injection H as <-. destruct Hi.
Qed.
Example ex_C34_vacuity : qplain (cfg pods [vacuous_k8s]) /\ answerable ex_reg q_vis None (without_gateways (cfg pods [vacuous_k8s])) /\
  a_bool (vacuity qA qQ no6 rid0 (cfg pods [vacuous_k8s])) = true /\ a_bool (vacuity qA qQ no6 rid0 g_all) = false.
Proof.
  split; [plainq|]. split; [exact (proj1 (one_answerable (cfg pods [vacuous_k8s]) LK8sCalico [vacuous_k8s] eq_refl eq_refl))|].
  split; vm_compute; reflexivity.
Qed.
Definition pname (p : peer) : string := match p with Named _ n => n | Block _ => "" end.
Definition all_pods : policy := Policy "e" "ns" TK8s true true pods [] [] None Allow.
Example ex_C34_all_captured : qplain (cfg pods [all_pods]) /\ a_bool (@all_captured (hc val) pname (cfg pods [all_pods])) = true /\
  a_bool (@all_captured (hc val) pname g_all) = false /\ a_num (@all_captured (hc val) pname g_all) = 5%Z.
Proof. split; [plainq|]. repeat apply conj; vm_compute; reflexivity. Qed.

Print Assumptions C29_equivalence.
Print Assumptions C30_containment.
Print Assumptions C30_two_way.
Print Assumptions C31_interferes.
Print Assumptions C31_intersects.
Print Assumptions clones_lose_nothing.
Print Assumptions without_gateways_list.
Print Assumptions C31_permits.
Print Assumptions C31_forbids.
Print Assumptions C32_exact_partition.
Print Assumptions C32_answer.
Print Assumptions C33_redundant_policy.
Print Assumptions C33_redundant_rule.
Print Assumptions C33_twin_rule.
Print Assumptions C33_answer.
Print Assumptions C34_disjointness.
Print Assumptions C34_emptiness.
Print Assumptions C34_vacuity.
Print Assumptions C34_all_captured.
Print Assumptions C29_all_addresses_refuted.
Print Assumptions C29_nothing_allowed_refuted.
Print Assumptions C29_insertion_order_refuted.
Print Assumptions C30_same_policies_refuted.
Print Assumptions C31_interferes_with_default_refuted.
Print Assumptions C32_unselected_peers_refuted.
Print Assumptions C33_calico_twin_refuted.
Print Assumptions C33_moved_policy_refuted.
Print Assumptions C33_listed_policies_refuted.
Print Assumptions C34_kinds_refuted.
Print Assumptions C34_excepted_block_refuted.
