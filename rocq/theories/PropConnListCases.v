(** * C65: the names that the code prints, and cases. *)
From Coq Require Import ZArith List Bool Arith Lia String Ascii.
From Verif Require Import IntervalModel IntervalFacts HyperModel HyperFacts HyperTop HyperInst PropHyperCube ConnModel ConnFacts TextModel TextFacts PortProtoModel PeerModel PeerFacts PeerSetFacts
                          PolicyModel PolicyLaws PolicyFacts LayerFacts ConnAlg StdDims PropLayers QueryModel QueryFacts QueryAlg YamlModel ClusterModel PropSelectors FWModel FWFacts FWAlg FWLabels PropFW
                          MapModel MapFacts GraphModel ConnTextModel ConnTextFacts IpTextModel IpTextFacts PropIpText ConnListModel ConnListFacts PropConnText PropMap PropConnList
                          PropQueries PropQueryCases PropIstioCases PropFWCases PropMapCases.
Import ListNotations.
Local Open Scope string_scope.
Local Open Scope list_scope.
Local Open Scope nat_scope.

(** ** Names of pods and of ranges *)
(** The names of the peers are words, no two are equal, and none reads as an address, a range or a network. *)
Definition names_ok (vis : list peer) : Prop :=
  (forall k n, In (Named k n) vis -> plain_name n /\ forall y, ~ says_ip n y) /\ forall k k' n, In (Named k n) vis -> In (Named k' n) vis -> k = k'.
(** Whom a name means: the peer with this name, and the addresses that it says. *)
Definition named (vis : list peer) (s : string) (x : point) : Prop := match x with PN k n => In (Named k n) vis /\ n = s | PA y => says_ip s y end.
Lemma range_text_free : forall c i, odd_char c -> c <> "-"%char -> vpos (lo i) -> vpos (hi i) -> has_char c (range_text i) = false.
Proof.
  intros c i O N Hl Hh. unfold range_text. destruct (ip_text_ok _ Hl) as (_ & _ & A). destruct (ip_text_ok _ Hh) as (_ & _ & B). destruct (lo i =? hi i)%Z; [apply A; exact O|].
  rewrite !has_char_app, (A c O), (B c O). cbn [has_char]. destruct (Ascii.eqb_spec "-" c) as [E|]; [congruence|reflexivity].
Qed.
Lemma pod_name_plain : forall vis, names_ok vis -> forall p, line_peer vis p -> plain_name (pod_name p).
Proof.
  intros vis [N _] [k n|l] H; cbn [line_peer pod_name] in *; [exact (proj1 (N k n H))|]. destruct H as (i & -> & Hi).
  assert (L : (lo i <= hi i)%Z) by (apply (canonical_in [i] i (proj1 Hi)); left; reflexivity).
  assert (V1 : vpos (lo i)) by (apply (proj2 Hi); exists i; split; [left; reflexivity|lia]). assert (V2 : vpos (hi i)) by (apply (proj2 Hi); exists i; split; [left; reflexivity|lia]).
  split; apply range_text_free; auto; try discriminate; repeat split; discriminate.
Qed.
Lemma pod_name_named : forall vis, names_ok vis -> forall p, line_peer vis p -> forall x, named vis (pod_name p) x <-> of_peer x p.
Proof.
  intros vis [N U] [k n|l] H x; cbn [line_peer pod_name] in *; unfold of_peer.
  - destruct x as [k' n'|y]; cbn [named pt_in].
    + split; [intros (H' & ->); left; rewrite (U _ _ _ H H'); reflexivity|]. intros [E|[]]. injection E as <- <-. auto.
    + split; [intros Hs; destruct (proj2 (N k n H) y Hs)|]. intros (l & [E|[]] & _). discriminate E.
  - destruct H as (i & -> & Hi). destruct x as [k n|y]; cbn [named pt_in].
    + split; [|intros [E|[]]; discriminate E]. intros (H' & ->). exfalso. apply (proj2 (N k _ H') (lo i)). apply (C66_ranges [i] Hi). exists i. split; [left; reflexivity|].
      assert (L : (lo i <= hi i)%Z) by (apply (canonical_in [i] i (proj1 Hi)); left; reflexivity). lia.
    + rewrite (C66_ranges [i] Hi y). split; [intros M; exists [i]; split; [left; reflexivity|exact M]|]. intros (l & [E|[]] & M). injection E as <-. exact M.
Qed.
(** C65 with these names: the text of the connectivity map is read with [named], and says exactly what is to be shown. *)
Theorem C65_pods : forall reg vis (R : reg_ok reg) (HV : container reg vis) (NE : vis <> []) allp word_text ws, readable (query_dom reg vis) word_text ws inner -> names_ok vis ->
  forall h6 cl owner workload, labels_plain cl vis -> forall flag s g, good reg vis g -> answerable reg vis None g ->
  exists t, map_text reg vis allp word_text pod_name h6 cl owner workload flag s g = Some t /\
    (forall pt, a_space (query_dom reg vis) pt -> map_says reg ws (named vis) t pt -> to_show reg vis h6 cl owner workload flag s g pt) /\
    (forall pt, a_space (query_dom reg vis) pt -> pt 6 <> 0%Z -> pt 7 <> 0%Z -> to_show reg vis h6 cl owner workload flag s g pt -> a_src reg pt <> a_dst reg pt -> map_says reg ws (named vis) t pt).
Proof.
  intros reg vis R HV NE allp word_text ws RD NO h6 cl owner workload LP flag s g G S.
  exact (C65_map reg vis R HV NE allp word_text ws RD pod_name (pod_name_plain vis NO) (named vis) (pod_name_named vis NO) h6 cl owner workload LP flag s g G S).
Qed.
Print Assumptions C65_pods.

(** ** Cases *)
Lemma q_names : names_ok q_vis.
Proof.
  assert (No : forall n y, read_block n = None -> has_char "," n = false -> ~ says_ip n y).
  { intros n y E Hc (s & i & Hs & Ei & _). rewrite (TextFacts.split_nochar "," n Hc) in Hs. destruct Hs as [<-|[]]. congruence. }
  split.
  - intros k n H. cbn [In q_vis] in H. unfold q_vis in H. cbn [In] in H. destruct H as [H|[H|[H|[H|[]]]]]; injection H as <- <-; (split; [split; reflexivity|]); intros y; apply No; reflexivity.
  - intros k k' n H H'. unfold q_vis in H, H'. cbn [In] in H, H'. destruct H as [H|[H|[H|[H|[]]]]]; injection H as <- <-; destruct H' as [H'|[H'|[H'|[H'|[]]]]]; first [discriminate H'|injection H' as <-; reflexivity].
Qed.
Lemma q_readable : readable (query_dom ex_reg q_vis) w_text w_says inner.
Proof.
  pose proof (w_readable (query_dom ex_reg q_vis) (ok_doms _ _ _ _ _ _ (qa_alg _ _ _ _ _ _ (query_alg ex_reg q_vis ex_reg_ok q_container q_ne)))) as H. intros d v Hd. apply H. clear - Hd. unfold inner in Hd. unfold std_all. cbn [In] in *. tauto.
Qed.
Definition l_text (g : config) : option string := map_text ex_reg q_vis q_vis w_text pod_name no6 ex_cl m_owner m_workload true everything g.
Definition lines (l : list string) : string := join nl l.
Example ex_list_text : l_text g_all = Some (lines
  ["0.0.0.0-255.255.255.255 => ns/b : All connections"; "0.0.0.0-255.255.255.255 => ns/c : All connections"; "ns/a => 0.0.0.0-255.255.255.255 : All connections";
   "ns/a => ns/b : All connections"; "ns/a => ns/c : All connections"; "ns/b => 0.0.0.0-255.255.255.255 : All connections"; "ns/b => ns/a : All connections";
   "ns/b => ns/c : All connections"; "ns/c => 0.0.0.0-255.255.255.255 : All connections"; "ns/c => ns/b : All connections"]).
Proof. vm_compute. reflexivity. Qed.
Example ex_list_tcp : l_text g_ap = Some (lines
  ["TCP Connections:"; "0.0.0.0-255.255.255.255 => ns/b : All connections"; "0.0.0.0-255.255.255.255 => ns/c : All connections"; "ns/a => 0.0.0.0-255.255.255.255 : All connections";
   "ns/a => ns/b : All connections"; "ns/a => ns/c : All connections"; "ns/b => 0.0.0.0-255.255.255.255 : All connections"; "ns/b => ns/a : All connections";
   "ns/b => ns/c : All connections"; "ns/c => 0.0.0.0-255.255.255.255 : All connections"; "ns/c => ns/b : All connections"; "";
   "non-TCP Connections:"; "0.0.0.0-255.255.255.255 => ns/a : All connections"; "0.0.0.0-255.255.255.255 => ns/b : All connections"; "0.0.0.0-255.255.255.255 => ns/c : All connections";
   "ns/a => 0.0.0.0-255.255.255.255 : All connections"; "ns/a => ns/b : All connections"; "ns/a => ns/c : All connections"; "ns/b => 0.0.0.0-255.255.255.255 : All connections";
   "ns/b => ns/a : All connections"; "ns/b => ns/c : All connections"; "ns/c => 0.0.0.0-255.255.255.255 : All connections"; "ns/c => ns/a : All connections"; "ns/c => ns/b : All connections"]).
Proof. vm_compute. reflexivity. Qed.
(** The theorem on these configurations. *)
Definition l_case (g : config) (G : good ex_reg q_vis g) (S : answerable ex_reg q_vis None g) :=
  C65_pods ex_reg q_vis ex_reg_ok q_container q_ne q_vis w_text w_says q_readable q_names no6 ex_cl m_owner m_workload m_plain true everything g G S.
Example ex_list : exists t, l_text g_ap = Some t /\
  (forall pt, a_space q_dom pt -> map_says ex_reg w_says (named q_vis) t pt -> m_show everything g_ap pt) /\
  (forall pt, a_space q_dom pt -> pt 6 <> 0%Z -> pt 7 <> 0%Z -> m_show everything g_ap pt -> a_src ex_reg pt <> a_dst ex_reg pt -> map_says ex_reg w_says (named q_vis) t pt).
Proof. exact (l_case g_ap g_ap_good g_ap_ans). Qed.
(** The reader at work: UDP from c to a is said by the text of [g_ap]; TCP is not. *)
Example ex_list_read : let t := match l_text g_ap with Some t => t | None => "" end in
  In (Some false, ("ns/c", "ns/a", "All connections")) (sections None (split newline t)) /\
  ~ exists c, In (Some true, ("ns/c", "ns/a", c)) (sections None (split newline t)).
Proof.
  cbv zeta. rewrite ex_list_tcp. split.
  - vm_compute. do 20 right. left. reflexivity.
  - intros (c & H). vm_compute in H. repeat (destruct H as [H|H]; [discriminate H|]). destruct H.
Qed.

(** ** Names of deployments (finding) *)
(** Pods a and b are replicas of one deployment. *)
Definition two_replicas (p : peer) : string := if peer_eqb p pc then "ns/db(StatefulSet)" else "ns/web(Deployment)".
Definition d_name : peer -> string := deployment_name (fun _ => "") two_replicas.
Definition d_text (h : hc val) : option string := part_text (query_dom ex_reg q_vis) ex_reg q_vis w_text d_name None h.
Example ex_deployment : d_text (of_rects f_rects) = Some (lines
  ["0.0.0.0-255.255.255.255 => ns/db[StatefulSet] : All connections"; "0.0.0.0-255.255.255.255 => ns/web[Deployment] : All connections";
   "::-ffff:ffff:ffff:ffff:ffff:ffff:ffff:ffff => ns/db[StatefulSet] : All connections"; "::-ffff:ffff:ffff:ffff:ffff:ffff:ffff:ffff => ns/web[Deployment] : All connections";
   "ns/web[Deployment] => ns/db[StatefulSet] : {protocols:TCP}"; "ns/web[Deployment] => www.ibm.com : All connections"]).
Proof. vm_compute. reflexivity. Qed.

(** Sets of connections that differ in who connects get the same text, and the connections between the replicas get no line at all: with names of deployments the text
    of the list does not determine the connections, although it does with names of pods. *)
Definition from_a : rects := [([pa], [pc], Some true)].
Definition from_b : rects := [([pb], [pc], Some true)].
Definition a_to_b : rects := [([pa], [pb], None)].
Theorem C65_deployments_refuted : exists h1 h2 h3 pt, q_ok q_dom std_rest h1 /\ q_ok q_dom std_rest h2 /\ q_ok q_dom std_rest h3 /\ a_space q_dom pt /\
  a_mem pt h1 /\ ~ a_mem pt h2 /\ d_text h1 = d_text h2 /\ d_text h1 = Some "ns/web[Deployment] => ns/db[StatefulSet] : {protocols:TCP}" /\
  (exists pt3, a_space q_dom pt3 /\ a_mem pt3 h3 /\ a_src ex_reg pt3 <> a_dst ex_reg pt3) /\ d_text h3 = Some "".
Proof.
  assert (F : forall p q o, In p pods -> In q pods -> Forall (fun r : peerset * peerset * option bool => pok q_vis (fst (fst r)) /\ pok q_vis (snd (fst r)) /\ kinds_fit (fst (fst r)) (snd (fst r)) = true) [([p], [q], o)]).
  { intros p q o Hp Hq. apply Forall_cons; [|apply Forall_nil]. cbn [fst snd]. unfold pods in Hp, Hq. cbn [In] in Hp, Hq. split; [|split].
    - destruct Hp as [<-|[<-|[<-|[]]]]; first [exact ok_a|exact ok_b|exact ok_c|okm].
    - destruct Hq as [<-|[<-|[<-|[]]]]; first [exact ok_a|exact ok_b|exact ok_c|okm].
    - destruct Hp as [<-|[<-|[<-|[]]]], Hq as [<-|[<-|[<-|[]]]]; reflexivity. }
  exists (of_rects from_a), (of_rects from_b), (of_rects a_to_b), (hconn (idx pa) (idx pc) 6 80 0 1 1).
  split; [apply rects_ok, F; cbn; auto|]. split; [apply rects_ok, F; cbn; auto|]. split; [apply rects_ok, F; cbn; auto|]. clear F. split; [qhspace|].
  split; [exact (proj1 (inside_spec _ (of_rects from_a)) (eq_refl true <: inside (hconn (idx pa) (idx pc) 6 80 0 1 1) (of_rects from_a) = true))|].
  split; [exact (proj1 (inside_not _ (of_rects from_b)) (eq_refl false <: inside (hconn (idx pa) (idx pc) 6 80 0 1 1) (of_rects from_b) = false))|].
  split; [vm_compute; reflexivity|]. split; [vm_compute; reflexivity|]. split; [|vm_compute; reflexivity].
  exists (hconn (idx pa) (idx pb) 6 80 0 1 1). split; [qhspace|].
  split; [exact (proj1 (inside_spec _ (of_rects a_to_b)) (eq_refl true <: inside (hconn (idx pa) (idx pb) 6 80 0 1 1) (of_rects a_to_b) = true))|]. vm_compute. discriminate.
Qed.
Print Assumptions C65_deployments_refuted.
