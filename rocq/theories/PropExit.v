(** * C35: what the exit codes of the modelled queries mean

    The command line of RunnerModel.v run with the queries of QueryModel.v; the meaning of their answers is taken from
    PropQueries.v. *)
From Coq Require Import ZArith List Bool Arith Lia String.
From Verif Require Import IntervalModel HyperModel HyperTop HyperInst PropHyperCube ConnModel PeerModel PeerFacts PeerSetFacts PolicyModel PolicyLaws
                          LayerFacts ConnAlg StdDims PropLayers QueryModel QueryAlg QuerySpecs SemDiff
                          PropQueries PropQueryCases RunnerModel PropRunner.
Import ListNotations.
Local Open Scope string_scope.
Local Open Scope list_scope.
Local Open Scope nat_scope.

Section Exit.
Context (reg vis : list peer) (R : reg_ok reg) (HV : container reg vis) (NE : vis <> [])
        (rid : rule -> rule -> bool) (h6 : policy -> bool) (RS : forall r s, rid r s = true -> r = s)
        (flag : bool)                                    (* excludeIPv6Range, that is, no --print_ipv6 *)
        (unsupported : switch -> bool) (msg : string) (finish : list string -> string)
        (text : switch -> config -> config -> string)    (* the explanations *)
        (sanity connectivity : config -> option (Z * string * bool)) (expected : option (string -> Z)).
Let dom := query_dom reg vis.
Let A := cube_ops dom std_all reg.
Let Q := cube_qops dom std_all reg.
Local Notation space := (a_space dom).
Definition answer_of (s : switch) (g1 g2 : config) : answer :=
  match s with
  | SwEquiv => two_way A Q h6 rid flag true g1 g2
  | SwInterferes => interferes A Q h6 rid flag true g1 g2
  | SwForbids => forbids A Q h6 rid flag g1 g2
  | SwPermits => permits A Q h6 rid flag true g1 g2
  | _ => semantic_diff A Q h6 rid flag true g1 g2
  end.
Definition query_of (s : switch) (g1 g2 : config) : option (Z * string * bool) :=
  Some (a_num (answer_of s g1 g2), text s g1 g2, a_skip (answer_of s g1 g2)).
Definition without_peers (g : config) : bool := match g_peers g with [] => true | _ => false end.
Definition command (s : switch) (np base : config) : option Z :=
  run_args (fun _ _ => false) without_peers unsupported msg sanity connectivity query_of finish expected s np base.

Lemma bz_bit : forall b, bz b = 0%Z \/ bz b = 1%Z.
Proof using. intros []; auto. Qed.
(** Whatever the configurations are, the queries of the command line on two of them give 0 or 1, and the semantic
    difference query is always executed: the assumptions of [C35_return_value] and [C35_exception] about them hold. *)
Theorem C35_command_answers : (forall s g1 g2 a, query_of s g1 g2 = Some a -> cmd_answer a) /\
  (forall g1 g2 a, query_of SwSemanticDiff g1 g2 = Some a -> snd a = false).
Proof using.
  clear R HV NE RS. assert (SD : forall g1 g2, let a := semantic_diff A Q h6 rid flag true g1 g2 in (a_num a = 0%Z \/ a_num a = 1%Z) /\ a_skip a = false).
  { intros g1 g2. cbv zeta. unfold semantic_diff. destruct (identical A rid g1 g2 true); [|cbn; auto|]; destruct (0 <? diff_count A Q h6 flag g1 g2); cbn; auto. }
  assert (CT : forall capt g1 g2, a_num (containment A Q h6 flag true capt g1 g2) = 0%Z \/ a_num (containment A Q h6 flag true capt g1 g2) = 1%Z).
  { intros capt g1 g2. unfold containment. destruct (pbool _); [cbn; auto|]. cbv zeta. destruct (filter_conns _ _ _ _ _ _) as [x1 x2].
    destruct (c_cont A x1 x2); cbn; auto. }
  split.
  - intros s g1 g2 a H. unfold query_of in H. injection H as <-. unfold cmd_answer. cbn [fst snd].
    destruct s; cbn [answer_of]; try apply SD.
    + unfold two_way. cbv zeta. destruct (identical A rid g1 g2 true); [|cbn; auto|];
        destruct (a_bool (containment _ _ _ _ _ _ g1 g2)), (a_bool (containment _ _ _ _ _ _ g2 g1)); cbn; auto.
    + unfold interferes. destruct (identical A rid g1 g2 false); [cbn; auto|..]; destruct (filter_conns _ _ _ _ _ _) as [x1 x2];
        destruct (c_cont A x1 x2); cbn; auto.
    + unfold forbids. destruct (negb _); [cbn; auto|]. destruct (only_gateway_layers _); [cbn; auto|]. cbn [a_num]. apply bz_bit.
    + unfold permits. destruct (negb _); [cbn; auto|]. destruct (identical A rid g1 g2 false); [cbn; auto|..];
        (destruct (only_gateway_layers _); [cbn; auto|]); apply CT.
  - intros g1 g2 a H. unfold query_of in H. injection H as <-. cbn [snd answer_of]. apply SD.
Qed.
(** The arguments: the format is one of the query's, both configurations have peers, no output is expected. *)
Definition runs (s : switch) (np base : config) : Prop :=
  unsupported s = false /\ g_peers np <> [] /\ g_peers base <> [] /\ expected = None.
Lemma command_code : forall s np base, runs s np base -> (s <> SwSanity /\ s <> SwConnectivity) ->
  command s np base = Some (let a := match s with SwEquiv | SwForbids | SwPermits => answer_of s np base | _ => answer_of s base np end in
                            4 * bz (a_skip a) + a_num a)%Z.
Proof using.
  clear R HV NE RS. intros s np base (U & P1 & P2 & EX) [N1 N2]. unfold command. rewrite one_execution. unfold compared. rewrite EX.
  assert (W1 : without_peers np = false) by (unfold without_peers; destruct (g_peers np); congruence).
  assert (W2 : without_peers base = false) by (unfold without_peers; destruct (g_peers base); congruence).
  destruct s; try congruence; cbn [asked]; unfold exec_two, execute_in_format; rewrite W1, W2, U; cbn [orb query_of i_skip i_num reads_expected];
    f_equal; lia.
Qed.
Local Notation good := (good reg vis).
Local Notation answerable := (answerable reg vis).
Local Notation answerable_captured := (answerable_captured reg vis).
Local Notation connects := (connects reg vis).
Local Notation captures := (captures reg vis).
Local Notation looks_at := (looks_at reg h6).

(** --equiv: 0 if the connections (and the peers) are the same, 1 if not. *)
Theorem C35_equiv : forall np base, runs SwEquiv np base -> good np -> good base -> answerable None np -> answerable None base ->
  in_same_order reg vis rid np base ->
  exists c, command SwEquiv np base = Some c /\ (c = 0 \/ c = 1)%Z /\
    (c = 0%Z <-> all_contained reg vis h6 flag np base /\ all_contained reg vis h6 flag base np).
Proof using R HV NE RS.
  intros np base Hr G1 G2 S1 S2 O. rewrite (command_code SwEquiv np base Hr) by (split; discriminate). eexists. split; [reflexivity|].
  destruct (C30_two_way reg vis R HV NE rid h6 RS flag true np base G1 G2 S1 S2 O) as (B & Sk & N & _). specialize (N eq_refl).
  cbn [answer_of]. set (a := two_way _ _ _ _ _ _ _ _) in *. change (two_way A Q h6 rid flag true np base) with a. rewrite Sk, N. clearbody a.
  split; [destruct (a_bool a); cbn; auto|]. refine (iff_trans _ B). destruct (a_bool a); cbn; split; auto; discriminate.
Qed.
(** --interferes: 0 if the base interferes with the policies, 1 if not, 5 if they cannot be compared. *)
Theorem C35_interferes : forall np base, runs SwInterferes np base -> good np -> good base -> answerable_captured np -> answerable_captured base ->
  exists c, command SwInterferes np base = Some c /\ (~ same_peers base np -> c = 5%Z) /\
    (same_peers base np -> (c = 0 \/ c = 1)%Z /\
      (c = 0%Z <-> exists pt, space pt /\ looks_at flag base np pt /\ captures base pt /\ ~ captures np pt)).
Proof using R HV NE.
  intros np base Hr G1 G2 S1 S2. rewrite (command_code SwInterferes np base Hr) by (split; discriminate). eexists. split; [reflexivity|].
  destruct (C31_interferes reg vis R HV NE rid h6 flag true base np G2 G1 S2 S1) as [H1 H2].
  cbn [answer_of]. set (a := interferes _ _ _ _ _ _ _ _) in *. change (interferes A Q h6 rid flag true base np) with a. clearbody a. split.
  - intros X. destruct (H1 X) as (_ & -> & ->). reflexivity.
  - intros X. destruct (H2 X) as (B & -> & -> & _). split; [destruct (a_bool a); cbn; auto|]. refine (iff_trans _ B). destruct (a_bool a); cbn; split; auto; discriminate.
Qed.
(** --permits: 0 if the base permits everything the policies allow, 1 if not. *)
Theorem C35_permits : forall np base, runs SwPermits np base -> let g := without_gateways np in
  good g -> good base -> answerable_captured g -> answerable None base -> has_plain_layer np -> same_peers np base ->
  exists c, command SwPermits np base = Some c /\ (c = 0 \/ c = 1)%Z /\
    (c = 0%Z <-> forall pt, space pt -> looks_at flag g base pt -> captures g pt -> connects None base pt).
Proof using R HV NE.
  intros np base Hr g G1 G2 S1 S2 HP SP. rewrite (command_code SwPermits np base Hr) by (split; discriminate). eexists. split; [reflexivity|].
  destruct (C31_permits reg vis R HV NE rid h6 flag true np base G1 G2 S1 S2 HP SP) as (B & N & Sk & _).
  cbn [answer_of]. set (a := permits _ _ _ _ _ _ _ _) in *. change (permits A Q h6 rid flag true np base) with a. rewrite Sk, N. clearbody a.
  fold g in B. split; [destruct (a_bool a); cbn; auto|]. refine (iff_trans _ B). destruct (a_bool a); cbn; split; auto; discriminate.
Qed.
(** --forbids: 0 if the base permits nothing the policies allow, 1 if it does. *)
Theorem C35_forbids : forall np base, runs SwForbids np base -> let g := without_gateways np in
  good g -> good base -> answerable_captured g -> answerable None base -> has_plain_layer np -> same_peers np base ->
  exists c, command SwForbids np base = Some c /\ (c = 0 \/ c = 1)%Z /\
    (c = 0%Z <-> forall pt, space pt -> looks_at flag g base pt -> captures g pt -> ~ connects None base pt).
Proof using R HV NE.
  intros np base Hr g G1 G2 S1 S2 HP SP. rewrite (command_code SwForbids np base Hr) by (split; discriminate). eexists. split; [reflexivity|].
  destruct (C31_forbids reg vis R HV NE rid h6 flag np base G1 G2 S1 S2 HP SP) as (B & N & Sk & _).
  cbn [answer_of]. set (a := forbids _ _ _ _ _ _ _) in *. change (forbids A Q h6 rid flag np base) with a. rewrite Sk. clearbody a.
  fold g in B. split; [rewrite N; destruct (a_bool a); cbn; auto|]. refine (iff_trans _ B). change (4 * bz false + a_num a)%Z with (a_num a). reflexivity.
Qed.
(** Nothing to ask about: policies without any policy, or gateway policies only. *)
Theorem C35_nothing_asked : forall s np base, s = SwPermits \/ s = SwForbids -> runs s np base -> policy_list np = [] -> command s np base = Some 4%Z.
Proof using.
  clear R HV NE RS. intros s np base H Hr E. rewrite (command_code s np base Hr) by (destruct H as [-> | ->]; split; discriminate).
  assert (X : has_policies np = false).
  { unfold has_policies. unfold policy_list in E. destruct (policies (g_pols np)); [reflexivity|discriminate]. }
  destruct H as [-> | ->]; cbn [answer_of]; [unfold permits|unfold forbids]; rewrite X; reflexivity.
Qed.
(** --semantic_diff: 0 if the connections between different ends are the same, 1 if not. *)
Theorem C35_semantic_diff : forall np base, runs SwSemanticDiff np base -> good np -> good base -> answerable None np -> answerable None base ->
  in_same_order reg vis rid base np -> agree_on_istio base np ->
  exists c, command SwSemanticDiff np base = Some c /\ (c = 0 \/ c = 1)%Z /\
    (c = 0%Z <-> forall pt, space pt -> looks_at flag base np pt -> a_src reg pt <> a_dst reg pt -> (connects None base pt <-> connects None np pt)).
Proof using R HV NE RS.
  intros np base Hr G1 G2 S1 S2 O AI. rewrite (command_code SwSemanticDiff np base Hr) by (split; discriminate). eexists. split; [reflexivity|].
  destruct (C32_answer reg vis R HV NE rid h6 RS flag true base np G2 G1 S2 S1 O AI) as (B & N1 & N2 & Sk).
  cbn [answer_of]. set (a := semantic_diff _ _ _ _ _ _ _ _) in *. change (semantic_diff A Q h6 rid flag true base np) with a. rewrite Sk. clearbody a.
  split; [destruct (a_bool a); [rewrite (N1 eq_refl)|rewrite (N2 eq_refl)]; cbn; auto|]. refine (iff_trans _ B). destruct (a_bool a); [rewrite (N1 eq_refl)|rewrite (N2 eq_refl)]; cbn; split; auto; discriminate.
Qed.
End Exit.

(** The cases of PropQueryCases.v at the command line. *)
Definition q_command : switch -> config -> config -> option Z :=
  command ex_reg q_vis rid0 no6 true (fun _ => false) "" (fun _ => "") (fun _ _ _ => "") (fun _ => None) (fun _ => None) None.
Example ex_C35_runs : forall s, runs (fun _ => false) None s g_all g_two /\ runs (fun _ => false) None s g_tcp g_all.
Proof. intros s. repeat split; discriminate. Qed.
Example ex_C35_equiv : q_command SwEquiv g_all g_two = Some 0%Z /\ q_command SwEquiv g_tcp g_all = Some 1%Z.
Proof. split; vm_compute; reflexivity. Qed.
Example ex_C35_interferes : q_command SwInterferes g_tcp g_all = Some 0%Z /\ q_command SwInterferes g_all g_tcp = Some 1%Z /\
  q_command SwInterferes g_all (cfg [pa; pb] []) = Some 5%Z.
Proof. repeat apply conj; vm_compute; reflexivity. Qed.
Example ex_C35_permits : q_command SwPermits g_tcp g_all = Some 0%Z /\ q_command SwPermits g_all g_tcp = Some 1%Z /\ q_command SwPermits (cfg pods []) g_tcp = Some 4%Z.
Proof. repeat apply conj; vm_compute; reflexivity. Qed.
Example ex_C35_forbids : q_command SwForbids g_all g_none = Some 0%Z /\ q_command SwForbids g_tcp g_all = Some 1%Z.
Proof. split; vm_compute; reflexivity. Qed.
Example ex_C35_semantic_diff : q_command SwSemanticDiff g_all g_two = Some 0%Z /\ q_command SwSemanticDiff g_tcp g_all = Some 1%Z.
Proof. split; vm_compute; reflexivity. Qed.

Print Assumptions C35_sums.
Print Assumptions C35_base_pairs.
Print Assumptions C35_pair_comparison.
Print Assumptions C35_all_pairs.
Print Assumptions C35_comparison.
Print Assumptions C35_stored_output.
Print Assumptions C35_return_value.
Print Assumptions C35_exception.
Print Assumptions C35_return_0.
Print Assumptions C35_scheme.
Print Assumptions C35_scheme_counts.
Print Assumptions C35_command_answers.
Print Assumptions C35_equiv.
Print Assumptions C35_interferes.
Print Assumptions C35_permits.
Print Assumptions C35_forbids.
Print Assumptions C35_nothing_asked.
Print Assumptions C35_semantic_diff.
Print Assumptions C35_one_config_refuted.
Print Assumptions C35_empty_file_refuted.
Print Assumptions C35_trailing_space_refuted.
Print Assumptions C35_unbounded_refuted.
Print Assumptions C35_sub_queries_refuted.
Print Assumptions C35_status_refuted.
Print Assumptions C35_seven_refuted.
Print Assumptions C35_html_refuted.
