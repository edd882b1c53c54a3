(** * C75, C76: cases. *)
From Coq Require Import ZArith List Bool Arith Lia String Ascii.
From Verif Require Import MinDfaModel ConnTextModel IntervalModel IntervalFacts HyperModel HyperFacts HyperTop HyperInst PropHyperCube ConnModel ConnFacts TextModel PortProtoModel GraphModel GraphFacts PeerModel PeerFacts PeerSetFacts
                          PolicyModel PolicyLaws PolicyFacts LayerFacts ConnAlg StdDims PropLayers QueryModel QueryFacts QueryAlg ConnDict YamlModel ClusterModel PropSelectors FWModel FWFacts FWAlg FWLabels PropFW
                          MapModel MapFacts PropMap PropQueries PropQueryCases PropIstioCases PropFWCases PropMapCases ExplModel ExplFacts ExplLayers ExplRun OrderFacts QuerySpecs QueryOne SemDiff PropExpl.
Import ListNotations.
Local Open Scope string_scope.
Local Open Scope list_scope.
Local Open Scope nat_scope.
(** ** The cases: names of peers, documents with pods, all policies in one file, no gateways or sidecars made later *)
Definition e_name (p : peer) : string := match p with Named _ n => n | Block _ => "0.0.0.0/0" end.
Definition e_items : list (string * Z * string * string) := [("pods.yaml", 1%Z, "ns/a", "ns/web(Deployment)"); ("pods.yaml", 20%Z, "ns/b", "ns/webserver(Deployment)"); ("pods.yaml", 40%Z, "ns/c", "")].
Definition e_docs (l : list policy) : list (@doc (hc val)) := map (fun p => DPolicy p "policies.yaml" 1%Z) l.
Notation e_expl s ps l n m := (explanation ex_reg q_vis no6 ex_cl m_owner m_workload e_name "pods" e_items (e_docs l) [] [] true s (cfg ps l) (e_name (Named 0 n)) (e_name (Named 0 m))).
Definition e_text (s : subset) (ps : peerset) (l : list policy) n m := bind (tracked qA (cube_ends q_dom ex_reg std_all) e_name ex_cl m_owner m_workload qQ no6 "pods" e_items (e_docs l) [] [] true s (cfg ps l)) (fun t => explain qA e_name t [n; m]).

Local Opaque point_of_index idx a_mem.
Local Notation qplain := (plain ex_reg q_vis).
Local Notation qans := (answerable ex_reg q_vis None).
Local Notation qsimple := (simple_for ex_reg q_vis).
Local Notation qreason := (reason ex_reg q_vis).
Local Notation qmap := (map_connects ex_reg q_vis no6 ex_cl m_owner m_workload true).
Local Notation qdescribed := (described e_name e_items).
Local Notation A := (PN 0 "ns/a").
Local Notation B := (PN 0 "ns/b").
Local Notation Cc := (PN 0 "ns/c").
Lemma e_apart : names_apart q_vis e_name.
Proof.
  intros k n q Hk Hq E. unfold q_vis, pa, pb, pc, dns in *. destruct q as [k' n'|l].
  - destruct Hq as [Hq|Hq]; [discriminate|]. cbn [e_name] in E. subst n'. cbn in Hk, Hq. destruct Hk as [H|[H|[H|[H|[]]]]], Hq as [G|[G|[G|[G|[]]]]]; congruence.
  - exfalso. cbn [e_name] in E. cbn in Hk. destruct Hk as [H|[H|[H|[H|[]]]]]; injection H as <- <-; discriminate.
Qed.
Lemma e_described : forall n, In n ["ns/a"; "ns/b"; "ns/c"] -> qdescribed (Named 0 n).
Proof.
  intros n H. assert (D : has_char "[" n = false /\ has_char "]" n = false /\ n <> "") by (destruct H as [<-|[<-|[<-|[]]]]; repeat split; try reflexivity; discriminate).
  destruct D as (D1 & D2 & D3). split; [exact D3|]. split; [|split; assumption]. cbn [e_name]. destruct H as [<-|[<-|[<-|[]]]]; do 3 eexists; cbn; eauto.
Qed.
Lemma doc_list : forall l, doc_policies (e_docs l) = l.
Proof. unfold doc_policies, e_docs. induction l as [|p l IH]; cbn [map flat_map]; [reflexivity|]. rewrite IH. reflexivity. Qed.
Lemma e_documents : forall ps l, policy_list (cfg ps l) = l -> forallb (fun p => negb (String.eqb (p_name p) "Default-Policy")) l = true -> documents_of (e_docs l) [] [] (cfg ps l).
Proof.
  intros ps l E N. split; rewrite E.
  - intros p. unfold all_loaded. cbn [map]. rewrite doc_list, !app_nil_r. tauto.
  - intros p Hp. rewrite forallb_forall in N. specialize (N p Hp). apply negb_true_iff, String.eqb_neq in N. exact N.
Qed.
Lemma rect_mem : forall a s d pr pt, pok q_vis s -> pok q_vis d -> a_space q_dom pt -> pt @ r_props (rq a s d pr) -> pt_in (a_src ex_reg pt) s /\ pt_in (a_dst ex_reg pt) d.
Proof. exact (rv_mem q_vis q_container q_ne). Qed.
Lemma one_in : forall x n, pt_in x [Named 0 n] <-> x = PN 0 n.
Proof. intros [k m|y] n; cbn; [split; [intros [H|[]]; congruence|intros H; left; congruence]|]. split; [intros (l & [H|[]] & _); discriminate|discriminate]. Qed.
Lemma e_look : forall s d proto port, a_src ex_reg (ex_conn s d proto port) = point_of_index ex_reg s /\ a_dst ex_reg (ex_conn s d proto port) = point_of_index ex_reg d.
Proof. intros. split; reflexivity. Qed.
Ltac endq := first [rewrite src_of|rewrite dst_of]; first [exact point_a|exact point_b|exact point_c].
(** A connection of the whole map. *)
Lemma map_shows : forall l a b proto, In a pods -> In b pods -> (0 <= proto <= 255)%Z -> let g := cfg pods l in let pt := ex_conn (idx a) (idx b) proto 80 in
  inside pt (all_allowed (config_conns qA (g_peers g) (lays (g_pols g)) only_all_allowed)) = true -> to_show ex_reg q_vis no6 ex_cl m_owner m_workload true everything g pt.
Proof.
  intros l a b proto Ha Hb Hp g pt H. split; [apply inside_spec in H; exact H|]. split; [|left; left; auto].
  assert (X : forall p, In p pods -> exists n, point_of_index ex_reg (idx p) = PN 0 n) by (intros p [<-|[<-|[<-|[]]]]; [exists "ns/a"; exact point_a|exists "ns/b"; exact point_b|exists "ns/c"; exact point_c]).
  destruct (X a Ha) as (na & Ea). destruct (X b Hb) as (nb & Eb). destruct (e_look (idx a) (idx b) proto 80) as [E1 E2]. unfold looks_at. unfold pt. rewrite E1, E2, Ea, Eb. clear. split; [discriminate|]. split; [cbn; tauto|]. intros _. cbn. tauto.
Qed.
Lemma map_shows_not : forall s g x y, (forall pt, a_space q_dom pt -> a_src ex_reg pt = x -> a_dst ex_reg pt = y -> connects ex_reg q_vis None g pt -> (istio_layers (lays (g_pols g)) = true -> a_tcp pt = true) -> False) -> ~ qmap s g x y.
Proof. intros s g x y H (pt & Sp & E1 & E2 & (Sh & _) & T). exact (H pt Sp E1 E2 Sh T). Qed.

(** ** C75 *)
Lemma all_simple : qsimple g_all false B /\ qsimple g_all true A.
Proof.
  split; intros p pt [<-|[]] Hs Sp Ho.
  - cbn in Hs. destruct Hs as [Hs|[]]. discriminate.
  - split; [discriminate|]. exists pt. split; [exact Sp|]. split; [exact Ho|]. split; [|reflexivity]. destruct Ho as [_ (r & [<-|[]] & Hm)].
    apply (rect_mem Allow [pb] [pa] None pt ok_b ok_a Sp) in Hm as [_ Hm]. apply one_in in Hm. exact Hm.
Qed.
(** Pod a accepts connections from b only; b -> a is connected by the default on b's side and by the policy on a's side. *)
Example ex_C75 : qplain g_all /\ qans g_all /\ documents_of (e_docs [from_b]) [] [] g_all /\ names_apart q_vis e_name /\
  qdescribed pb /\ qdescribed pa /\ qsimple g_all false B /\ qsimple g_all true A /\ qmap everything g_all B A /\
  e_expl everything pods [from_b] "ns/b" "ns/a" = Some (RTwo true (e_name (Named 0 "ns/b")) (e_name (Named 0 "ns/a")) ["Default-Policy"] ["p"]) /\
  qreason g_all false B A "Default-Policy" /\ qreason g_all true A B "p" /\ ~ qreason g_all true A B "Default-Policy".
Proof.
  assert (M : qmap everything g_all B A).
  { exists (ex_conn (idx pb) (idx pa) 6 80). split; [spaceq|]. split; [endq|]. split; [endq|]. split; [|intros _; reflexivity]. apply map_shows; [cbn; auto|cbn; auto|lia|vm_compute; reflexivity]. }
  assert (E : e_expl everything pods [from_b] "ns/b" "ns/a" = Some (RTwo true (e_name (Named 0 "ns/b")) (e_name (Named 0 "ns/a")) ["Default-Policy"] ["p"])) by (vm_compute; reflexivity).
  assert (D : documents_of (e_docs [from_b]) [] [] g_all) by (apply e_documents; reflexivity).
  destruct (C75_explains_connection ex_reg q_vis ex_reg_ok q_container q_ne no6 ex_cl m_owner m_workload m_plain e_name "pods" e_items (e_docs [from_b]) [] [] true everything (cfg pods [from_b]) 0 "ns/b" 0 "ns/a"
     g_all_plain (proj1 g_all_ans) D e_apart ltac:(discriminate) ltac:(cbn; auto) ltac:(cbn; auto) (e_described "ns/b" ltac:(cbn; auto)) (e_described "ns/a" ltac:(cbn; auto)) (proj1 all_simple) (proj2 all_simple) M)
    as (ls & ld & E' & _ & _ & _ & _ & R1 & R2).
  rewrite E in E'. injection E' as <- <-.
  split; [exact g_all_plain|]. split; [exact (proj1 g_all_ans)|]. split; [exact D|]. split; [exact e_apart|]. split; [apply e_described; cbn; auto|]. split; [apply e_described; cbn; auto|].
  split; [apply all_simple|]. split; [apply all_simple|]. split; [exact M|]. split; [exact E|]. split; [apply R1; left; reflexivity|]. split; [apply R2; left; reflexivity|].
  intros H. apply R2 in H as [H|[]]. discriminate H.
Qed.
(** Finding F122.  A Calico policy with a source selector in an egress rule is listed for every pod it selects, although the rule is about one of
    them: the peers of a policy's rules are taken from all of its allowed connections (ExplTracker.py:240-245).  Policy k selects a and c and lets a
    reach b, policy m lets c reach b; both are listed for c -> b. *)
Definition k_a : policy := Policy "k" "ns" TCalico false true [pa; pc] [] [rq Allow [pa] [pb] None] None Allow.
Definition m_c : policy := Policy "m" "ns" TK8s false true [pc] [] [rq Allow [pc] [pb] None] None Allow.
Local Opaque all_ips.
Lemma ok_ac : pok q_vis [pa; pc]. Proof. pokq. Qed.
Local Opaque pok c_rect.
Lemma source_plain : qplain (cfg pods [k_a; m_c]).
Proof.
  apply case_plain; [exact pods_container|]. intros p [<-|[<-|[]]]; [|goodq]. split; [|nopass].
  assert (RG : forall r, In r [rq Allow [pa] [pb] None] -> regular q_dom std_rest (r_props r) /\ cls_of (r_props r) = Conn) by (intros r [<-|[]]; apply (rv_good q_vis q_container q_ne); [exact ok_a|exact ok_b]).
  split; [apply policy_wf_regular; [|exact ok_ac]; intros r Hr; apply RG; exact Hr|]. split; [|intros r Hr; apply RG; exact Hr].
  split; [intros r pt Sp []|]. split; [|memq]. intros r pt Sp [<-|[]] Hm. apply (rect_mem Allow [pa] [pb] None pt ok_a ok_b Sp) in Hm as [Hm _]. apply one_in in Hm. rewrite Hm. cbn. auto.
Qed.
Local Transparent c_rect.
Lemma source_ans : qans (cfg pods [k_a; m_c]).
Proof. exact (proj1 (one_answerable (cfg pods [k_a; m_c]) LK8sCalico _ eq_refl eq_refl)). Qed.
Theorem C75_source_selector_refuted : let g := cfg pods [k_a; m_c] in qplain g /\ qans g /\ documents_of (e_docs [k_a; m_c]) [] [] g /\ qmap everything g Cc B /\
  (exists ld, e_expl everything pods [k_a; m_c] "ns/c" "ns/b" = Some (RTwo true (e_name (Named 0 "ns/c")) (e_name (Named 0 "ns/b")) ["k"; "m"] ld)) /\ ~ qreason g false Cc B "k".
Proof.
  cbv zeta. split; [exact source_plain|]. split; [exact source_ans|]. split; [apply e_documents; reflexivity|]. split.
  { exists (ex_conn (idx pc) (idx pb) 6 80). split; [spaceq|]. split; [endq|]. split; [endq|]. split; [|intros _; reflexivity]. apply map_shows; [cbn; auto|cbn; auto|lia|vm_compute; reflexivity]. }
  split; [eexists; vm_compute; reflexivity|]. intros [(p & Hp & _ & En & pt & Sp & E1 & _ & Ho)|[En _]]; [|discriminate En].
  destruct Hp as [<-|[<-|[]]]; [|discriminate En]. destruct Ho as (pre & r & post & E & _ & _ & Hm & _). destruct pre as [|x [|y pre]]; try discriminate E. injection E as <- _.
  apply (rect_mem Allow [pa] [pb] None pt ok_a ok_b Sp) in Hm as [Hm _]. apply one_in in Hm. unfold near in E1. rewrite Hm in E1. discriminate E1.
Qed.
(** Finding F123.  A Sidecar has no say about ingress, but it is listed as the reason of any connection to the pods it selects, in place of the
    default: its allowed ingress connections are everything (IstioSidecar.py:61). *)
Definition s_b : policy := Policy "s" "ns" TSidecar false true [pb] [] [rq Allow [pb] [pa] (Some true)] None Allow.
Local Opaque c_rect.
Lemma sidecar_plain : qplain (cfg pods [s_b]). Proof. plainq. Qed.
Local Transparent c_rect.
Lemma sidecar_ans : qans (cfg pods [s_b]).
Proof. exact (proj1 (one_answerable (cfg pods [s_b]) LIstio _ eq_refl eq_refl)). Qed.
Theorem C75_sidecar_refuted : let g := cfg pods [s_b] in qplain g /\ qans g /\ documents_of (e_docs [s_b]) [] [] g /\ qmap everything g A B /\
  (exists ls, e_expl everything pods [s_b] "ns/a" "ns/b" = Some (RTwo true (e_name (Named 0 "ns/a")) (e_name (Named 0 "ns/b")) ls ["s"])) /\ forall p x, In p (policy_list g) -> ~ selects p true x.
Proof.
  cbv zeta. split; [exact sidecar_plain|]. split; [exact sidecar_ans|]. split; [apply e_documents; reflexivity|]. split.
  { exists (ex_conn (idx pa) (idx pb) 6 80). split; [spaceq|]. split; [endq|]. split; [endq|]. split; [|intros _; reflexivity]. apply map_shows; [cbn; auto|cbn; auto|lia|vm_compute; reflexivity]. }
  split; [eexists; vm_compute; reflexivity|]. intros p x [<-|[]] [_ [H _]]. discriminate H.
Qed.
(** Finding F124.  If a Calico policy passes the connection on then nothing is listed on this side, and the pod itself is written below
    "Policy Configurations:" (ExplTracker.py:300-327). *)
Definition k_pass : policy := Policy "k" "ns" TCalico true false [pa] [rq Pass [pb] [pa] None] [] None Allow.
Lemma pass_point : let pt := ex_conn (idx pb) (idx pa) 6 80 in a_space q_dom pt /\ pt @ r_props (rq Pass [pb] [pa] None).
Proof. cbv zeta. split; [spaceq|yesq]. Qed.
Local Opaque c_rect.
Lemma pass_good : good ex_reg q_vis (cfg pods [k_pass]).
Proof.
  assert (PG : policy_good ex_reg q_vis pods k_pass).
  { apply (case_good _ q_container q_ne); [exact ok_a|memq|repeat (constructor; [constructor; [okq|okq|reflexivity]|]); constructor|constructor]. }
  split; [exact pods_container|]. split; [apply loaded_any|]. split; [intros p [<-|[]]; exact PG|]. intros n pols [H|[]]. injection H as <- <-. split; [intros p [<-|[]]; apply PG|]. right. intros ing.
  pose proof pass_point as Pt. cbv zeta in Pt. destruct Pt as [Sp Hm]. split.
  - intros p [<-|[]] _. right. intros pre r post E _. destruct ing; cbn [rules_of p_ingress p_egress k_pass] in E; [|destruct pre; discriminate E]. destruct pre as [|x [|y pre]]; try discriminate E. injection E as <- _.
    exists (ex_conn (idx pb) (idx pa) 6 80). split; [exact Sp|]. split; [exact Hm|]. intros q [].
  - intros pre p post E Cp a. destruct pre as [|x [|y pre]]; try discriminate E. injection E as <- _. destruct ing; [|destruct Cp; reflexivity].
    destruct a; try (right; intros pt _ (pr & r & po & E & Ea & _); destruct pr as [|x [|y pr]]; try discriminate E; injection E as <- _; discriminate Ea).
    left. exists (ex_conn (idx pb) (idx pa) 6 80). split; [exact Sp|]. split; [|intros q b []]. exists [], (rq Pass [pb] [pa] None), []. split; [reflexivity|]. split; [reflexivity|]. split; [discriminate|]. split; [exact Hm|]. intros q [].
Qed.
Local Transparent c_rect.
Lemma pass_ans : qans (cfg pods [k_pass]).
Proof. exact (proj1 (one_answerable (cfg pods [k_pass]) LK8sCalico _ eq_refl eq_refl)). Qed.
Definition nl : string := String newline "".
Theorem C75_pass_refuted : let g := cfg pods [k_pass] in good ex_reg q_vis g /\ qans g /\ documents_of (e_docs [k_pass]) [] [] g /\ qmap everything g B A /\
  e_expl everything pods [k_pass] "ns/b" "ns/a" = Some (RTwo true (e_name (Named 0 "ns/b")) (e_name (Named 0 "ns/a")) ["Default-Policy"] []) /\
  exists text rest, e_text everything pods [k_pass] "ns/b" "ns/a" = Some text /\ text = (rest ++ "(dst)ns/a:" ++ nl ++ "Policy Configurations:" ++ nl ++ "ns/a: line 1 in file pods.yaml")%string.
Proof.
  cbv zeta. split; [exact pass_good|]. split; [exact pass_ans|]. split; [apply e_documents; reflexivity|]. split.
  { exists (ex_conn (idx pb) (idx pa) 6 80). split; [spaceq|]. split; [endq|]. split; [endq|]. split; [|intros _; reflexivity]. apply map_shows; [cbn; auto|cbn; auto|lia|vm_compute; reflexivity]. }
  split; [vm_compute; reflexivity|].
  eexists. exists (nl ++ "Configurations affecting the connectivity between (src)ns/b and (dst)ns/a:" ++ nl ++ nl ++ "(src)ns/b:" ++ nl ++ "Policy Configurations:" ++ nl ++ "Default-Policy" ++ nl ++ "Resource Configurations:" ++ nl ++ "ns/b: line 20 in file pods.yaml" ++ nl ++ nl)%string.
  split; [vm_compute; reflexivity|vm_compute; reflexivity].
Qed.
(** Finding F125.  Policies of the same name in different namespaces are one entry of the tracker, with the place of the one read last
    (ExplTracker.py:135-154): the policy of pod a is in one.yaml, the explanation points to two.yaml. *)
Definition p_1 : policy := Policy "p" "ns" TK8s true false [pa] [rq Allow [pb] [pa] None] [] None Allow.
Definition p_2 : policy := Policy "p" "other" TK8s true false [pc] [rq Allow [pb] [pc] None] [] None Allow.
Definition two_docs : list (@doc (hc val)) := [DPolicy p_1 "one.yaml" 1%Z; DPolicy p_2 "two.yaml" 9%Z].
Local Opaque c_rect.
Lemma two_plain : qplain (cfg pods [p_1; p_2]). Proof. plainq. Qed.
Local Transparent c_rect.
Theorem C75_place_refuted : let g := cfg pods [p_1; p_2] in qplain g /\ documents_of two_docs [] [] g /\
  (forall p path ln, In (DPolicy p path ln) two_docs -> pt_in A (p_selected p) -> path = "one.yaml") /\
  exists t, tracked qA (cube_ends q_dom ex_reg std_all) e_name ex_cl m_owner m_workload qQ no6 "pods" e_items two_docs [] [] true everything g = Some t /\
    node_lines t "ns/a" ["p"] None = Some ["Policy Configurations:"; "p: line 9 in file two.yaml"; "Resource Configurations:"; "ns/a: line 1 in file pods.yaml"].
Proof.
  cbv zeta. split; [exact two_plain|]. split.
  { split; [intros p; cbn; tauto|]. intros p [<-|[<-|[]]]; discriminate. }
  split.
  { intros p path ln [H|[H|[]]] Hs; injection H as <- <- <-; [reflexivity|]. cbn in Hs. destruct Hs as [Hs|[]]. discriminate. }
  destruct (tracked _ _ _ _ _ _ _ _ _ _ _ _ _ _ _ _) as [t|] eqn:E; [|vm_compute in E; discriminate]. exists t. split; [reflexivity|].
  assert (X : bind (tracked qA (cube_ends q_dom ex_reg std_all) e_name ex_cl m_owner m_workload qQ no6 "pods" e_items two_docs [] [] true everything (cfg pods [p_1; p_2])) (fun t => node_lines t "ns/a" ["p"] None)
     = Some ["Policy Configurations:"; "p: line 9 in file two.yaml"; "Resource Configurations:"; "ns/a: line 1 in file pods.yaml"]) by (vm_compute; reflexivity).
  rewrite E in X. exact X.
Qed.

(** ** C76 *)
(** Pod c does not reach pod a: the policy of a is listed. *)
Example ex_C76 : ~ qmap everything g_all Cc A /\ e_expl everything pods [from_b] "ns/c" "ns/a" = Some (RTwo false (e_name (Named 0 "ns/c")) (e_name (Named 0 "ns/a")) ["Default-Policy"] ["Default-Policy"; "p"]) /\
  selects from_b true A.
Proof.
  assert (E : e_expl everything pods [from_b] "ns/c" "ns/a" = Some (RTwo false (e_name (Named 0 "ns/c")) (e_name (Named 0 "ns/a")) ["Default-Policy"] ["Default-Policy"; "p"])) by (vm_compute; reflexivity).
  assert (D : documents_of (e_docs [from_b]) [] [] g_all) by (apply e_documents; reflexivity).
  assert (Sc : qsimple g_all false Cc) by (intros p pt [<-|[]] Hs Sp Ho; cbn in Hs; destruct Hs as [Hs|[]]; discriminate).
  assert (M : ~ qmap everything g_all Cc A).
  { intros M. destruct (C75_explains_connection ex_reg q_vis ex_reg_ok q_container q_ne no6 ex_cl m_owner m_workload m_plain e_name "pods" e_items (e_docs [from_b]) [] [] true everything (cfg pods [from_b]) 0 "ns/c" 0 "ns/a"
     g_all_plain (proj1 g_all_ans) D e_apart ltac:(discriminate) ltac:(cbn; auto) ltac:(cbn; auto) (e_described "ns/c" ltac:(cbn; auto)) (e_described "ns/a" ltac:(cbn; auto)) Sc (proj2 all_simple) M)
    as (ls & ld & E' & _).
    rewrite E in E'. discriminate E'. }
  split; [exact M|]. split; [exact E|]. split; [cbn; auto|reflexivity].
Qed.
Example ex_C76_case : exists ls ld, e_expl everything pods [from_b] "ns/c" "ns/a" = Some (RTwo false (e_name (Named 0 "ns/c")) (e_name (Named 0 "ns/a")) ls ld) /\ exists p, In p [from_b] /\ (In (p_name p) ls \/ In (p_name p) ld).
Proof.
  assert (D : documents_of (e_docs [from_b]) [] [] g_all) by (apply e_documents; reflexivity).
  destruct (C76_explains_lack ex_reg q_vis ex_reg_ok q_container q_ne no6 ex_cl m_owner m_workload m_plain e_name "pods" e_items (e_docs [from_b]) [] [] true (cfg pods [from_b]) 0 "ns/c" 0 "ns/a"
     g_all_plain (proj1 g_all_ans) D e_apart ltac:(discriminate) ltac:(cbn; auto) ltac:(cbn; auto) (e_described "ns/c" ltac:(cbn; auto)) (e_described "ns/a" ltac:(cbn; auto)) (proj1 ex_C76))
    as (ls & ld & E & _ & _ & _ & _ & X).
  exists ls, ld. split; [exact E|]. destruct (X eq_refl eq_refl) as (p & Hp & H). exists p. split; [exact Hp|]. destruct H as [[_ H]|[_ H]]; auto.
Qed.
(** Finding F126.  If a subset of the endpoints is chosen, a lack of connectivity is reported for pods outside of it although they are connected: the
    explanation looks at the connections of the map (NetworkConfigQuery.py:764-782). *)
Definition of_other : subset := Subset (Some "other") None None.
Theorem C76_subset_refuted : let pt := ex_conn (idx pa) (idx pb) 6 80 in
  (exists ls ld, e_expl of_other pods [from_b] "ns/a" "ns/b" = Some (RTwo false (e_name (Named 0 "ns/a")) (e_name (Named 0 "ns/b")) ls ld)) /\
  a_space q_dom pt /\ a_src ex_reg pt = A /\ a_dst ex_reg pt = B /\ connects ex_reg q_vis None g_all pt.
Proof. cbv zeta. split; [do 2 eexists; vm_compute; reflexivity|]. split; [spaceq|]. split; [endq|]. split; [endq|yesq]. Qed.
(** Finding F127.  With Istio policies a lack of connectivity is reported for pods connected by other protocols than TCP, which the map shows: only
    the TCP connections are given to the tracker (NetworkConfigQuery.py:775-782). *)
Theorem C76_non_tcp_refuted : let pt := ex_conn (idx pc) (idx pa) 17 80 in
  (exists ls ld, e_expl everything pods [ap_b] "ns/c" "ns/a" = Some (RTwo false (e_name (Named 0 "ns/c")) (e_name (Named 0 "ns/a")) ls ld)) /\
  a_space q_dom pt /\ a_src ex_reg pt = Cc /\ a_dst ex_reg pt = A /\ to_show ex_reg q_vis no6 ex_cl m_owner m_workload true everything g_ap pt.
Proof. cbv zeta. split; [do 2 eexists; vm_compute; reflexivity|]. split; [spaceq|]. split; [endq|]. split; [endq|]. apply map_shows; [cbn; auto|cbn; auto|lia|vm_compute; reflexivity]. Qed.
(** Finding F128.  With a subset, pods that are not in a connection of the map are not known to the tracker: explaining them ends in an assertion
    (ExplTracker.py:213-238, Peer.py:750-751).  Pod c is isolated. *)
Definition iso_c : policy := Policy "i" "ns" TK8s true true [pc] [] [] None Allow.
Theorem C76_unknown_refuted : e_expl of_other pods [iso_c] "ns/c" "ns/a" = None /\ e_expl everything pods [iso_c] "ns/c" "ns/a" <> None.
Proof. split; [vm_compute; reflexivity|vm_compute; discriminate]. Qed.

Print Assumptions C75_source_selector_refuted.
Print Assumptions C75_sidecar_refuted.
Print Assumptions C75_pass_refuted.
Print Assumptions C75_place_refuted.
Print Assumptions C76_subset_refuted.
Print Assumptions C76_non_tcp_refuted.
Print Assumptions C76_unknown_refuted.
