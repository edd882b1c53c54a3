(** * C77: cases. *)
From Coq Require Import ZArith List Bool Arith Lia String Ascii.
From Verif Require Import MinDfaModel ConnTextModel IntervalModel IntervalFacts HyperModel HyperFacts HyperTop HyperInst PropHyperCube ConnModel ConnFacts TextModel PortProtoModel GraphModel GraphFacts PeerModel PeerFacts PeerSetFacts
                          PolicyModel PolicyLaws PolicyFacts LayerFacts ConnAlg StdDims PropLayers QueryModel QueryFacts QueryAlg ConnDict YamlModel ClusterModel PropSelectors FWModel FWFacts FWAlg FWLabels PropFW
                          MapModel MapFacts PropMap PropQueries PropQueryCases PropIstioCases PropFWCases PropMapCases ExplModel ExplFacts ExplLayers ExplRun OrderFacts QuerySpecs QueryOne SemDiff PropExpl PropExplCases PropExplAll.
Import ListNotations.
Local Open Scope string_scope.
Local Open Scope list_scope.
Local Open Scope nat_scope.
Notation e_after ep s ps l := (after_query ex_reg q_vis no6 ex_cl m_owner m_workload e_name ep e_items (e_docs l) [] [] true s (cfg ps l)).
Local Opaque point_of_index idx a_mem.
Lemma e_nameable : nameable q_vis e_name.
Proof.
  intros [k n|l] H; [|repeat split; try reflexivity; discriminate]. destruct H as [H|H]; [discriminate|]. unfold q_vis, pa, pb, pc, dns in H. cbn in H.
  destruct H as [H|[H|[H|[H|[]]]]]; injection H as <- <-; repeat split; try reflexivity; discriminate.
Qed.
Lemma e_read : documents_of (e_docs [from_b]) [] [] g_all.
Proof. apply e_documents; reflexivity. Qed.
(** The policy of a is listed, with the default of the egress; c has the default only. *)
Example ex_C77_one : bind (e_after "pods" everything pods [from_b]) (fun t => explain_nodes qA e_name t ["ns/a"]) = Some (ROne "ns/a" ["Default-Policy"; "p"]) /\
  bind (e_after "pods" everything pods [from_b]) (fun t => explain_nodes qA e_name t ["ns/c"]) = Some (ROne "ns/c" ["Default-Policy"]).
Proof. split; vm_compute; reflexivity. Qed.
Example ex_C77_one_case : exists l, bind (e_after "pods" everything pods [from_b]) (fun t => explain_nodes qA e_name t [e_name (Named 0 "ns/a")]) = Some (ROne (e_name (Named 0 "ns/a")) l) /\ In "p" l.
Proof.
  destruct (C77_explains_one ex_reg q_vis ex_reg_ok q_container q_ne no6 ex_cl m_owner m_workload e_name "pods" e_items (e_docs [from_b]) [] [] true (cfg pods [from_b]) 0 "ns/a"
     g_all_plain (proj1 g_all_ans) e_read e_apart ltac:(discriminate) ltac:(cbn; auto) (e_described "ns/a" ltac:(cbn; auto))) as (t & l & E1 & E2 & _ & H).
  exists l. split; [unfold everything; rewrite E1; exact E2|]. apply H; [discriminate|]. exists from_b. split; [left; reflexivity|]. split; [cbn; auto|reflexivity].
Qed.
(** Sixteen entries for three pods and the addresses. *)
Definition four : list string := ["0.0.0.0/0"; "ns/a"; "ns/b"; "ns/c"].
Example ex_C77_all : bind (e_after "pods" everything pods [from_b]) (fun t => bind (explain_all qA e_name t) (fun l => Some (map fst l))) = Some (list_prod four four).
Proof. vm_compute. reflexivity. Qed.
Example ex_C77_all_case : exists t names out, e_after "pods" everything pods [from_b] = Some t /\ explain_all qA e_name t = Some out /\ map fst out = list_prod names names /\ In "ns/c" names.
Proof.
  destruct (C77_explains_all ex_reg q_vis ex_reg_ok q_container q_ne no6 ex_cl m_owner m_workload m_plain e_name "pods" e_items (e_docs [from_b]) [] [] true (Subset None None None) (cfg pods [from_b])
     g_all_plain (proj1 g_all_ans) e_read e_apart e_nameable ltac:(discriminate) (ex_intro _ 0 (ex_intro _ "ns/a" (conj (or_introl eq_refl) (e_described "ns/a" ltac:(cbn; auto)))))) as (t & names & out & E1 & E2 & _ & E3 & _ & H & _).
  exists t, names, out. split; [exact E1|]. split; [exact E2|]. split; [exact E3|]. apply (H eq_refl 0 "ns/c"). cbn. auto.
Qed.
(** Finding F129.  If the map is one of deployments then only one pod of each is explained (ExplTracker.py:354-368): the map shows a connection of two
    pods of one deployment that has no entry, and the policy which is its reason is in no text.  Here a and b are of one deployment, b accepts
    connections of a only. *)
Definition one_deployment : list (string * Z * string * string) := [("pods.yaml", 1%Z, "ns/a", "ns/web(Deployment)"); ("pods.yaml", 20%Z, "ns/b", "ns/web(Deployment)"); ("pods.yaml", 40%Z, "ns/c", "")].
Definition b_from_a : policy := Policy "p" "ns" TK8s true false [pb] [rq Allow [pa] [pb] None] [] None Allow.
Notation d_after := (after_query ex_reg q_vis no6 ex_cl m_owner m_workload e_name "deployments" one_deployment (e_docs [b_from_a]) [] [] true everything (cfg pods [b_from_a])).
Fixpoint has_text (x text : string) : bool := match text with EmptyString => false | String _ r => String.prefix x text || has_text x r end.
Theorem C77_deployments_refuted : let g := cfg pods [b_from_a] in documents_of (e_docs [b_from_a]) [] [] g /\
  map_connects ex_reg q_vis no6 ex_cl m_owner m_workload true everything g (PN 0 "ns/a") (PN 0 "ns/b") /\ reason ex_reg q_vis g true (PN 0 "ns/b") (PN 0 "ns/a") "p" /\
  exists out, bind d_after (fun t => explain_all qA e_name t) = Some out /\
    map fst out = list_prod ["0.0.0.0/0"; "ns/web(Deployment)"; "ns/c"] ["0.0.0.0/0"; "ns/web(Deployment)"; "ns/c"] /\ forall e, In e out -> has_text "policies.yaml" (snd e) = false.
Proof.
  cbv zeta. split; [apply e_documents; reflexivity|]. split.
  { exists (ex_conn (idx pa) (idx pb) 6 80). split; [spaceq|]. split; [endq|]. split; [endq|]. split; [|intros _; reflexivity]. apply map_shows; [cbn; auto|cbn; auto|lia|vm_compute; reflexivity]. }
  split.
  { left. exists b_from_a. split; [left; reflexivity|]. split; [cbn; auto|]. split; [reflexivity|]. exists (ex_conn (idx pa) (idx pb) 6 80). split; [spaceq|]. split; [unfold near; endq|]. split; [unfold far; endq|].
    split; [reflexivity|]. eexists. split; [left; reflexivity|]. yesq. }
  assert (X : bind (bind d_after (fun t => explain_all qA e_name t)) (fun l => Some (map fst l, forallb (fun e => negb (has_text "policies.yaml" (snd e))) l)) = Some (list_prod ["0.0.0.0/0"; "ns/web(Deployment)"; "ns/c"] ["0.0.0.0/0"; "ns/web(Deployment)"; "ns/c"], true)) by (vm_compute; reflexivity).
  destruct (bind d_after (fun t => explain_all qA e_name t)) as [out|]; [|discriminate X]. cbn [bind] in X. exists out. split; [reflexivity|]. injection X as X1 X2. split; [exact X1|].
  intros e He. rewrite forallb_forall in X2. specialize (X2 e He). apply negb_true_iff in X2. exact X2.
Qed.
Print Assumptions C77_deployments_refuted.
