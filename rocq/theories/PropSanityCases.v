(** * Concrete cases and counterexamples for C70-C72 (PropSanity.v). *)
From Coq Require Import ZArith List Bool Arith Lia String Permutation.
From Verif Require Import IntervalModel IntervalFacts HyperModel HyperFacts HyperTop HyperInst PropHyperCube ConnModel
                          PortProtoModel PeerModel PeerFacts PeerSetFacts PolicyModel PolicyLaws PolicyFacts LayerFacts
                          OrderFacts ConnAlg StdDims HyperDims PropLayers QueryModel QueryFacts QueryAlg QuerySpecs SemDiff QueryOne
                          PropQueries PropQueryCases SanityModel SanityFacts PropSanity.
Import ListNotations.
Local Open Scope string_scope.
Local Open Scope nat_scope.
Local Open Scope list_scope.
Local Opaque all_ips pok c_rect point_of_index idx a_mem.
Local Notation qplain := (plain ex_reg q_vis).
Local Notation qlooks := (looks_at ex_reg no6).
Local Notation qconnects := (connects ex_reg q_vis).
Local Notation qcaptures := (captures ex_reg q_vis).
Local Notation sane := (sanity qA qQ no6 rid0).

(** ** Tools *)
Definition blockless (s : peerset) : bool := forallb (fun q => negb (is_block q)) s.
Lemma blockless_void : forall s, blockless s = true -> no_void s.
Proof. intros s H l Hl. unfold blockless in H. rewrite forallb_forall in H. specialize (H _ Hl). discriminate. Qed.
Lemma no_blocks : forall g : config, loaded g ->
  forallb (fun p => blockless (p_selected p) && forallb (fun r => blockless (r_src r) && blockless (r_dst r)) (p_ingress p ++ p_egress p)) (policy_list g) = true -> blocks_inhabited g.
Proof.
  intros g LD H n pols p H1 H2. rewrite forallb_forall in H. destruct (layer_policy g n pols p (loaded_inv g LD) H1 H2) as [Hp _]. specialize (H p Hp).
  apply andb_true_iff in H as [A B]. split; [apply blockless_void; exact A|]. intros r Hr. rewrite forallb_forall in B. specialize (B r Hr). apply andb_true_iff in B as [B1 B2].
  split; apply blockless_void; assumption.
Qed.
Ltac blocksq := apply no_blocks; [apply loaded_any|vm_compute; reflexivity].
Lemma pods_no_hep : ~ has_hep pods.
Proof. intros ([k n|y] & Hx & Hh); [|destruct Hx]. cbn in Hx. cbn in Hh. destruct Hx as [X|[X|[X|[]]]]; injection X as <- <-; discriminate. Qed.
Ltac distinctq := let p := fresh in let q := fresh in let Hp := fresh in let Hq := fresh in let E := fresh in
  intros p q Hp Hq E; repeat (destruct Hp as [<-|Hp]; [repeat (destruct Hq as [<-|Hq]; [first [reflexivity|exfalso; vm_compute in E; discriminate]|]); destruct Hq|]); destruct Hp.
Ltac sidedq := let p := fresh in let Hp := fresh in intros p Hp; repeat (destruct Hp as [<-|Hp]; [split; intros; first [discriminate|reflexivity]|]); destruct Hp.
(** ** C70 *)
(** Pod a accepts b only, twice over; a rule without sources; a policy selecting nothing; a policy of b. *)
Definition w_p : policy := Policy "p" "ns" TK8s true false [pa] [rq Allow [pb] [pa] None; rq Allow [pb] [pa] (Some true); rq Allow [] [pa] None] [] None Allow.
Definition w_q : policy := Policy "q" "ns" TK8s true false [pb] [rq Allow [pc] [pb] (Some true)] [] None Allow.
Definition w_e : policy := Policy "e" "ns" TK8s true false [] [rq Allow [pc] [] None] [] None Allow.
Definition w_g : config := cfg pods [w_p; w_q; w_e].
Example ex_C70 : loaded w_g /\ blocks_inhabited w_g /\
  sane w_g = Some (Issues [EmptyRule w_p true 3 true; RedundantRule w_p true 2 (Some (w_p, 1, false)); EmptyPolicy w_e]).
Proof. split; [apply loaded_any|]. split; [blocksq|vm_compute; reflexivity]. Qed.
(** Nothing to report about these two policies. *)
Definition ok_p : policy := Policy "p" "ns" TK8s true false [pa] [rq Allow [pb] [pa] (Some true)] [] None Allow.
Definition ok_q : policy := Policy "q" "ns" TK8s true true [pb] [rq Allow [pc] [pb] None] [rq Allow [pb] [pa] None] None Allow.
Definition ok_g : config := cfg pods [ok_p; ok_q].
Example ex_C70_passes : qplain ok_g /\ has_pod ok_g /\ blocks_inhabited ok_g /\ answerable ex_reg q_vis None (without_gateways ok_g) /\ ignores6 no6 true ok_g ok_g /\
  (forall p, In p (policy_list ok_g) -> (p_kind p = TIstioAP -> p_egress p = []) /\ (p_kind p = TSidecar -> p_ingress p = [])) /\
  sane ok_g = Some (Issues []) /\ a_bool (sanity_answer (C := hc val) (Issues [])) = true.
Proof.
  split; [plainq|]. split; [apply pods_pod|]. split; [blocksq|]. split; [apply (one_answerable ok_g LK8sCalico [ok_p; ok_q] eq_refl eq_refl)|].
  split; [split; [reflexivity|split; reflexivity]|]. split; [sidedq|]. split; [vm_compute; reflexivity|reflexivity].
Qed.
(** A vacuous configuration: nothing else is checked. *)
Definition any_q : policy := Policy "q" "ns" TK8s true true [pb] [rq Allow anyone [pb] None] [rq Allow [pb] anyone None] None Allow.
Example ex_C70_vacuous : sane (cfg pods [any_q]) = Some (Issues [Vacuous]) /\ sane (cfg pods []) = Some NothingToCheck.
Proof. split; vm_compute; reflexivity. Qed.
Example ex_C70_runs : loaded ok_g /\ (forall p q, In p (policy_list ok_g) -> In q (policy_list ok_g) -> full_name p = full_name q -> p = q) /\
  (forall p q, In p (policy_list ok_g) -> In q (policy_list ok_g) -> p_kind p = TK8s -> ~ is_calico q).
Proof.
  split; [apply loaded_any|]. split.
  - intros p q [<-|[<-|[]]] [<-|[<-|[]]] E; try reflexivity; discriminate.
  - intros p q _ [<-|[<-|[]]] _ [X|[X|X]]; discriminate.
Qed.
(** Finding F109.  The query ends with an exception (AttributeError: 'K8sPolicyRule' object has no attribute 'action') if a
    redundant rule of a Kubernetes policy is contained in a rule of a Calico policy. *)
Definition c_any : policy := Policy "c" "ns" TCalico true false [pa] [rq Allow [pb] [pa] None] [] (Some 2000%Z) Allow.
Definition k_two : policy := Policy "k" "ns" TK8s true false [pa] [rq Allow [pb] [pa] (Some true); rq Allow [pc] [pa] None] [] None Allow.
Theorem C70_mixed_refuted : qplain (cfg pods [c_any; k_two]) /\ blocks_inhabited (cfg pods [c_any; k_two]) /\
  (forall p q, In p (policy_list (cfg pods [c_any; k_two])) -> In q (policy_list (cfg pods [c_any; k_two])) -> full_name p = full_name q -> p = q) /\
  rule_redundant qA qQ no6 rid0 (cfg pods [c_any; k_two]) LK8sCalico k_two true (rq Allow [pb] [pa] (Some true)) = true /\
  sane (cfg pods [c_any; k_two]) = None.
Proof.
  split; [plainq|]. split; [blocksq|]. split; [intros p q [<-|[<-|[]]] [<-|[<-|[]]] E; try reflexivity; discriminate|]. split; vm_compute; reflexivity.
Qed.
(** Finding F110.  It also does if a redundant policy has the full name of a policy of another kind
    (clone_with_just_one_policy: "There is more than one policy named"). *)
Definition n_c : policy := Policy "k" "ns" TCalico true false [pa] [rq Allow [pb] [pa] (Some true)] [] None Allow.
Definition n_k : policy := Policy "k" "ns" TK8s true false [pa] [rq Allow [pb] [pa] None] [] None Allow.
Theorem C70_names_refuted : qplain (cfg pods [n_c; n_k]) /\ n_c <> n_k /\ In n_c (policy_list (cfg pods [n_c; n_k])) /\ In n_k (policy_list (cfg pods [n_c; n_k])) /\
  full_name n_c = full_name n_k /\ sane (cfg pods [n_c; n_k]) = None.
Proof.
  split; [plainq|]. split; [discriminate|]. split; [left; reflexivity|]. split; [right; left; reflexivity|]. split; [reflexivity|vm_compute; reflexivity].
Qed.

(** ** C71 *)
Example ex_C71_contained : qplain g_red /\ blocks_inhabited g_red /\ ~ has_hep (g_peers g_red) /\ distinct_policies ex_reg q_vis rid0 g_red /\
  sane g_red = Some (Issues [RedundantPolicy tcp_q (ContainedIn from_b)]).
Proof. split; [plainq|]. split; [blocksq|]. split; [exact pods_no_hep|]. split; [distinctq|vm_compute; reflexivity]. Qed.
(** The allow rule and the deny rule of z are each explained by another policy. *)
Definition cov_x : policy := Policy "x" "ns" TCalico true false [pa] [rq Deny [pb] [pa] (Some true)] [] (Some 2%Z) Allow.
Definition cov_y : policy := Policy "y" "ns" TCalico true false [pa] [rq Allow [pb] [pa] (Some false)] [] (Some 3%Z) Allow.
Definition cov_z : policy := Policy "z" "ns" TCalico true false [pa] [rq Deny [pb] [pa] (Some true); rq Allow [pb] [pa] (Some false)] [] (Some 1%Z) Allow.
Definition cov_g : config := cfg pods [cov_x; cov_y; cov_z].
Example ex_C71_covered : qplain cov_g /\ blocks_inhabited cov_g /\ ~ has_hep (g_peers cov_g) /\ distinct_policies ex_reg q_vis rid0 cov_g /\
  sane cov_g = Some (Issues [RedundantPolicy cov_z (CoveredBy cov_y cov_x); RedundantPolicy cov_x Unexplained; RedundantPolicy cov_y Unexplained]).
Proof. split; [plainq|]. split; [blocksq|]. split; [exact pods_no_hep|]. split; [distinctq|vm_compute; reflexivity]. Qed.
Example ex_C71_no_change : sane (cfg pods [ok_p; any_q]) = Some (Issues [RedundantPolicy any_q NoChange]).
Proof. vm_compute. reflexivity. Qed.
(** Rules of one Calico policy: contained in an earlier rule with the same action, and with the other one. *)
Definition rules_c : policy := Policy "c" "ns" TCalico true false [pa]
  [rq Allow [pc] [pa] (Some true); rq Deny [pb] [pa] None; rq Allow [pc] [pa] None; rq Deny [pb] [pa] (Some true); rq Allow [pb] [pa] (Some false)] [] (Some 5%Z) Allow.
Example ex_C71_rules : qplain (cfg pods [rules_c]) /\ distinct_policies ex_reg q_vis rid0 (cfg pods [rules_c]) /\
  sane (cfg pods [rules_c]) = Some (Issues [RedundantRule rules_c true 1 None; RedundantRule rules_c true 4 (Some (rules_c, 2, false)); RedundantRule rules_c true 5 (Some (rules_c, 2, true))]).
Proof. split; [plainq|]. split; [distinctq|vm_compute; reflexivity]. Qed.
(** Finding F111.  A deny rule of a Calico policy contained in a rule of a Kubernetes policy: the actions differ, which is not said. *)
Definition d_c : policy := Policy "c" "ns" TCalico true false [pa] [rq Deny [pb] [pa] (Some true); rq Allow [pc] [pa] None] [] None Allow.
Definition d_k : policy := Policy "k" "ns" TK8s true false [pa] [rq Allow [pb] [pa] None] [] None Allow.
Theorem C71_actions_refuted : qplain (cfg pods [d_c; d_k]) /\ sane (cfg pods [d_c; d_k]) = Some (Issues [RedundantRule d_c true 1 (Some (d_k, 1, false))]) /\
  opinion d_c true (ex_conn (idx pb) (idx pa) 6 80) Deny /\ opinion d_k true (ex_conn (idx pb) (idx pa) 6 80) Allow.
Proof.
  split; [plainq|]. split; [vm_compute; reflexivity|]. split.
  - unfold opinion. cbn [d_c p_kind]. exists [], (rq Deny [pb] [pa] (Some true)), [rq Allow [pc] [pa] None]. split; [reflexivity|]. split; [reflexivity|]. split; [discriminate|]. split; [yesq|]. intros r [].
  - unfold opinion. cbn [d_k p_kind]. split; [reflexivity|]. exists (rq Allow [pb] [pa] None). split; [left; reflexivity|yesq].
Qed.
(** Finding F112.  The search for an explanation ends at the first policy with a smaller order, and the policies are sorted by order:
    that a rule is contained in a rule of an earlier policy, with the same action, is not found. *)
Definition s_a : policy := Policy "a" "ns" TCalico true false [pc] [rq Allow [pb] [pc] None] [] (Some 1%Z) Allow.
Definition s_b : policy := Policy "b" "ns" TCalico true false [pa] [rq Allow [pb] [pa] None] [] (Some 2%Z) Allow.
Definition s_c : policy := Policy "c" "ns" TCalico true false [pa] [rq Allow [pb] [pa] (Some true); rq Allow [pc] [pa] None] [] (Some 3%Z) Allow.
Definition s_g : config := cfg pods [s_a; s_b; s_c].
Theorem C71_search_refuted : qplain s_g /\ distinct_policies ex_reg q_vis rid0 s_g /\ queried s_g LK8sCalico [s_a; s_b; s_c] /\
  sane s_g = Some (Issues [RedundantRule s_c true 1 None]) /\ nth_error (p_ingress s_c) 0 = Some (rq Allow [pb] [pa] (Some true)) /\
  nth_error (p_ingress s_b) 0 = Some (rq Allow [pb] [pa] None) /\
  (forall pt, a_space q_dom pt -> pt @ r_props (rq Allow [pb] [pa] (Some true)) -> pt @ r_props (rq Allow [pb] [pa] None)) /\ stops_at s_c s_a /\ stops_at s_c s_b.
Proof.
  split; [plainq|]. split; [distinctq|]. split; [split; [left; reflexivity|split; discriminate]|]. split; [vm_compute; reflexivity|]. split; [reflexivity|]. split; [reflexivity|]. split.
  - intros pt Sp H. assert (L := q_claws q_dom std_rest ex_reg q_vis _ _ (query_alg ex_reg q_vis ex_reg_ok q_container q_ne)).
    apply (proj2 (l_rect _ _ _ _ _ _ _ _ _ L (Some [pb]) (Some [pa]) None pt ok_b ok_a Sp)).
    destruct (proj1 (l_rect _ _ _ _ _ _ _ _ _ L (Some [pb]) (Some [pa]) (Some true) pt ok_b ok_a Sp) H) as (H1 & H2 & _). split; [exact H1|]. split; [exact H2|exact I].
  - split; [exists 3%Z, 1%Z|exists 3%Z, 2%Z]; cbn; repeat split; lia.
Qed.
(** Finding F113.  A redundant sidecar is said to have no effective rules although it has one that forbids a connection. *)
Definition sc_s : policy := Policy "s" "ns" TSidecar false true [pa] [] [rq Allow [pa] [pa] None; rq Allow [pa] [pb] None; rq Allow [pa] [Block all_ips] None] None Allow.
Definition sc_d : policy := Policy "d" "ns" TIstioAP true false [pc] [rq Allow [pa] [pc] None] [] None Deny.
Theorem C71_sidecar_refuted : sane (cfg pods [sc_s; sc_d]) = Some (Issues [RedundantPolicy sc_s NoRules; RedundantPolicy sc_d Unexplained]) /\
  let pt := ex_conn (idx pa) (idx pc) 6 80 in
  a_space q_dom pt /\ ~ qconnects (Some LIstio) (cfg pods [sc_s]) pt /\ qconnects (Some LIstio) (cfg pods []) pt.
Proof. split; [vm_compute; reflexivity|]. cbv zeta. split; [spaceq|]. split; [noq|yesq]. Qed.
(** Finding F114.  A policy with ingress rules only is said to be contained in one with egress rules only: the latter allows all ingress. *)
Definition dir_q : policy := Policy "q" "ns" TK8s false true [pa] [] [rq Allow [pa] [pb] None] None Allow.
Definition dir_p : policy := Policy "p" "ns" TK8s true false [pa] [rq Allow [pb] [pa] None] [] None Allow.
Definition dir_r : policy := Policy "r" "ns" TK8s true false [pa] [rq Allow pods [pa] None] [] None Allow.
Theorem C71_direction_refuted : sane (cfg pods [dir_q; dir_p; dir_r]) = Some (Issues [RedundantPolicy dir_p (ContainedIn dir_q)]) /\
  rules_of dir_q true = [] /\ rules_of dir_p false = [] /\
  redundant qA qQ no6 rid0 (cfg pods [dir_q; dir_p]) LK8sCalico dir_p = false /\ redundant qA qQ no6 rid0 (cfg pods [dir_p; dir_r]) LK8sCalico dir_p = true.
Proof. split; [vm_compute; reflexivity|]. split; [reflexivity|]. split; [reflexivity|]. split; vm_compute; reflexivity. Qed.

(** ** C72 *)
(** Two policies of order 5, one denying what the other allows; the result depends on the order they are loaded in. *)
Definition odd_d : policy := Policy "c" "ns" TCalico true false [pa] [rq Deny [pb] [pa] (Some true)] [] (Some 5%Z) Allow.
Definition odd_a : policy := Policy "d" "ns" TCalico true false [pa] [rq Allow [pb] [pa] None] [] (Some 5%Z) Allow.
Example ex_C72 : qplain (cfg pods [odd_d; odd_a]) /\ blocks_inhabited (cfg pods [odd_d; odd_a]) /\
  sane (cfg pods [odd_d; odd_a]) = Some (Conflict odd_a odd_d) /\ sane (cfg pods [odd_a; odd_d]) = Some (Conflict odd_d odd_a) /\
  let pt := ex_conn (idx pb) (idx pa) 6 80 in
  a_space q_dom pt /\ ~ qconnects (Some LK8sCalico) (cfg pods [odd_d; odd_a]) pt /\ qconnects (Some LK8sCalico) (cfg pods [odd_a; odd_d]) pt.
Proof. split; [plainq|]. split; [blocksq|]. split; [vm_compute; reflexivity|]. split; [vm_compute; reflexivity|]. cbv zeta. split; [spaceq|]. split; [noq|yesq]. Qed.
(** Rules made of peer sets have peers on both sides. *)
Lemma sides_rq : forall l : list policy, (forall p, In p (policy_list (cfg pods l)) -> Forall (rv_of q_vis true (p_selected p)) (p_ingress p) /\ Forall (rv_of q_vis false (p_selected p)) (p_egress p)) ->
  sides_present ex_reg q_vis (cfg pods l).
Proof.
  intros l H p r pt Hp Hr Sp M. destruct (H p Hp) as [F1 F2]. rewrite Forall_forall in F1, F2.
  apply in_app_or in Hr as [Hr|Hr]; [apply F1 in Hr|apply F2 in Hr]; destruct Hr as [a s d pr Hs Hd _];
    destruct (rv_mem q_vis q_container q_ne a s d pr pt Hs Hd Sp M) as [X1 X2]; (split; eexists; eassumption).
Qed.
Definition odd_b : policy := Policy "d" "ns" TCalico true false [pa] [rq Allow [pb] [pa] None] [] (Some 6%Z) Allow.
Example ex_C72_load_order : qplain (cfg pods [odd_d; odd_b]) /\ qplain (cfg pods [odd_b; odd_d]) /\
  Permutation (policy_list (cfg pods [odd_d; odd_b])) (policy_list (cfg pods [odd_b; odd_d])) /\
  sides_present ex_reg q_vis (cfg pods [odd_d; odd_b]) /\ orders_apart (cfg pods [odd_d; odd_b]) /\ ~ at_odds odd_d odd_b /\ ~ at_odds odd_b odd_d /\
  layer_list (g_pols (cfg pods [odd_b; odd_d])) LK8sCalico = [odd_d; odd_b].
Proof.
  split; [plainq|]. split; [plainq|]. split; [apply perm_swap|]. split.
  - apply sides_rq. intros p [<-|[<-|[]]]; split; cbn [odd_d odd_b p_selected p_ingress p_egress]; repeat (constructor; [constructor; [okq|okq|reflexivity]|]); constructor.
  - split; [intros p q _ [<-|[<-|[]]] _ _; discriminate|]. split; [intros [E _]; discriminate|]. split; [intros [E _]; discriminate|vm_compute; reflexivity].
Qed.
(** Finding F115.  Policies of equal order are reported as conflicting although they never disagree about a connection: the rules
    need not have a connection in common. *)
Definition odd_e : policy := Policy "d" "ns" TCalico true false [pa] [rq Allow [pc] [pa] None] [] (Some 5%Z) Allow.
Theorem C72_spurious_refuted : qplain (cfg pods [odd_d; odd_e]) /\ sane (cfg pods [odd_d; odd_e]) = Some (Conflict odd_e odd_d) /\
  (forall pt, a_space q_dom pt -> pt @ r_props (rq Deny [pb] [pa] (Some true)) -> ~ pt @ r_props (rq Allow [pc] [pa] None)).
Proof.
  split; [plainq|]. split; [vm_compute; reflexivity|]. intros pt Sp H1 H2.
  destruct (rv_mem q_vis q_container q_ne _ _ _ _ pt ok_b ok_a Sp H1) as [X _]. destruct (rv_mem q_vis q_container q_ne _ _ _ _ pt ok_c ok_a Sp H2) as [Y _].
  destruct (a_src ex_reg pt) as [k n|y]; cbn in X, Y; [|destruct X as (z & [X|[]] & _); discriminate]. destruct X as [X|[]], Y as [Y|[]]. rewrite <- X in Y. discriminate Y.
Qed.
(** Finding F116.  Conflicts between a Kubernetes policy and a Calico policy of order 1000, and between Pass and Deny rules, are not
    reported, although the order of loading decides what is allowed. *)
Definition th_k : policy := Policy "k" "ns" TK8s true false [pa] [rq Allow [pb] [pa] None] [] None Allow.
Definition th_c : policy := Policy "c" "ns" TCalico true false [pa] [rq Deny [pb] [pa] (Some true)] [] (Some 1000%Z) Allow.
Definition ps_p : policy := Policy "p" "ns" TCalico true false [pa] [rq Pass [pb] [pa] None] [] (Some 5%Z) Allow.
Definition reports_conflict (g : config) : bool := match sane g with Some (Conflict _ _) => true | _ => false end.
Theorem C72_thousand_refuted : qplain (cfg pods [th_k; th_c]) /\ qplain (cfg pods [th_c; th_k]) /\
  reports_conflict (cfg pods [th_k; th_c]) = false /\ reports_conflict (cfg pods [th_c; th_k]) = false /\
  let pt := ex_conn (idx pb) (idx pa) 6 80 in
  a_space q_dom pt /\ qconnects (Some LK8sCalico) (cfg pods [th_k; th_c]) pt /\ ~ qconnects (Some LK8sCalico) (cfg pods [th_c; th_k]) pt.
Proof. split; [plainq|]. split; [plainq|]. split; [vm_compute; reflexivity|]. split; [vm_compute; reflexivity|]. cbv zeta. split; [spaceq|]. split; [yesq|noq]. Qed.
Theorem C72_pass_refuted : reports_conflict (cfg pods [ps_p; odd_d]) = false /\ reports_conflict (cfg pods [odd_d; ps_p]) = false /\
  let pt := ex_conn (idx pb) (idx pa) 6 80 in
  a_space q_dom pt /\ qconnects (Some LK8sCalico) (cfg pods [ps_p; odd_d]) pt /\ ~ qconnects (Some LK8sCalico) (cfg pods [odd_d; ps_p]) pt.
Proof. split; [vm_compute; reflexivity|]. split; [vm_compute; reflexivity|]. cbv zeta. split; [spaceq|]. split; [yesq|noq]. Qed.

Print Assumptions C70_issues.
Print Assumptions C70_runs.
Print Assumptions C70_passes.
Print Assumptions C70_mixed_refuted.
Print Assumptions C70_names_refuted.
Print Assumptions C71_policy.
Print Assumptions C71_rule.
Print Assumptions C71_rule_unexplained.
Print Assumptions C71_actions_refuted.
Print Assumptions C71_search_refuted.
Print Assumptions C71_sidecar_refuted.
Print Assumptions C71_direction_refuted.
Print Assumptions C72_conflict.
Print Assumptions C72_load_order.
Print Assumptions C72_spurious_refuted.
Print Assumptions C72_thousand_refuted.
Print Assumptions C72_pass_refuted.
