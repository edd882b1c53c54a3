(** * C63: cases. *)
From Coq Require Import ZArith List Bool Arith Lia String Ascii.
From Verif Require Import IntervalModel IntervalFacts HyperModel HyperFacts HyperTop HyperInst PropHyperCube ConnModel ConnFacts TextModel PortProtoModel PeerModel PeerFacts PeerSetFacts
                          PolicyModel PolicyLaws PolicyFacts LayerFacts ConnAlg StdDims PropLayers QueryModel QueryFacts QueryAlg ConnDict YamlModel ClusterModel PropSelectors FWModel FWFacts FWAlg FWLabels PropFW
                          MapModel MapFacts PropMap PropQueries PropQueryCases PropIstioCases PropFWCases.
Import ListNotations.
Local Open Scope string_scope.
Local Open Scope list_scope.
Local Open Scope nat_scope.

(** Pod a is of the deployment web, b of webserver, c has no owner.  Pod a accepts connections from b only: all of them by a NetworkPolicy
    ([g_all]), TCP by an Istio AuthorizationPolicy ([g_ap]). *)
Definition m_owner (p : peer) : string := if peer_eqb p pa then "web" else if peer_eqb p pb then "webserver" else "".
Definition m_workload (p : peer) : string := if peer_eqb p pa then "ns/web(Deployment)" else if peer_eqb p pb then "ns/webserver(Deployment)" else "".
Definition ap_b : policy := Policy "ap" "ns" TIstioAP true false [pa] [rq Allow [pb] [pa] (Some true)] [] None Allow.
Definition g_ap : config := cfg pods [ap_b].
Local Opaque c_rect.
Ltac okm := first [exact ok_a|exact ok_b|exact ok_none].
Lemma g_ap_good : good ex_reg q_vis g_ap.
Proof.
  apply plain_good. apply case_plain; [exact pods_container|]. intros p H. cbn [In] in H. destruct H as [<-|[]]. goodq.
Qed.
Local Transparent c_rect.
Lemma g_ap_ans : answerable ex_reg q_vis None g_ap.
Proof. exact (proj1 (one_answerable g_ap LIstio [ap_b] eq_refl eq_refl)). Qed.
Lemma g_all_good : good ex_reg q_vis g_all. Proof. exact (plain_good _ _ _ g_all_plain). Qed.
Lemma m_plain : labels_plain ex_cl q_vis. Proof. exact ex_plain. Qed.
Definition m_map (s : subset) (g : config) := map_rules ex_reg q_vis no6 ex_cl m_owner m_workload true s ["app"] true g.
Definition m_show (s : subset) (g : config) := to_show ex_reg q_vis no6 ex_cl m_owner m_workload true s g.
Definition mshape (r : option (list (option bool * list (hc val * list (elem * elem))))) := option_map (map (fun p => (fst p, map snd (snd p)))) r.
Definition v4_all : iset := [Ivl 0 4294967295].
Definition everything : subset := Subset None None None.
(** The whole map; the map of namespace other; the map of the endpoints with app=db with Istio, in two parts. *)
Example ex_map_shape :
  mshape (m_map everything g_all) = Some [(None,
    [[(ENs [Some "ns"], ENs [Some "ns"; Some "other"]); (ENs [Some "other"], ENs [Some "other"]); (EIp v4_all, ENs [Some "other"]); (ENs [Some "ns"; Some "other"], EIp v4_all);
      (ENs [Some "other"], ELabels "app" ["db"] (Some "ns")); (EIp v4_all, ELabels "app" ["db"] (Some "ns"))]])] /\
  mshape (m_map (Subset (Some "default,other") None None) g_all) = Some [(None,
    [[(ENs [Some "ns"; Some "other"], ENs [Some "other"]); (EIp v4_all, ENs [Some "other"]); (ENs [Some "other"], ELabels "app" ["db"] (Some "ns")); (ENs [Some "other"], EIp v4_all)]])] /\
  mshape (m_map (Subset (Some "other") None None) g_ap) = Some
    [(Some true, [[(ENs [Some "ns"; Some "other"], ENs [Some "other"]); (EIp v4_all, ENs [Some "other"]); (ENs [Some "other"], ELabels "app" ["db"] (Some "ns")); (ENs [Some "other"], EIp v4_all)]]);
     (Some false, [[(ENs [Some "ns"], ENs [Some "other"]); (ENs [Some "other"], ENs [Some "ns"; Some "other"]); (EIp v4_all, ENs [Some "other"]); (ENs [Some "other"], EIp v4_all)]])].
Proof. repeat apply conj; vm_compute; reflexivity. Qed.
Definition m_case (s : subset) (g : config) (G : good ex_reg q_vis g) (S : answerable ex_reg q_vis None g) :=
  C63_map_rules ex_reg q_vis ex_reg_ok q_container q_ne no6 ex_cl m_owner m_workload m_plain true s ["app"] true g G S.
Example ex_map : exists out, m_map (Subset (Some "other") None None) g_ap = Some out /\
  let peers := snd (map_conns ex_cl m_owner m_workload qA qQ no6 true (Subset (Some "other") None None) g_ap) in
  (forall pt, a_space q_dom pt -> shown ex_reg ex_cl peers out pt -> m_show (Subset (Some "other") None None) g_ap pt \/ exists k n, k < 2 /\ a_src ex_reg pt = PN k n /\ a_dst ex_reg pt = PN k n) /\
  (forall pt, a_space q_dom pt -> pt 6 <> 0%Z -> pt 7 <> 0%Z -> m_show (Subset (Some "other") None None) g_ap pt -> shown ex_reg ex_cl peers out pt).
Proof. exact (m_case (Subset (Some "other") None None) g_ap g_ap_good g_ap_ans). Qed.
(** Connections that are to be shown, or not: c -> b is shown, a -> b is not (neither is in namespace other), c -> a by TCP is not allowed. *)
Example ex_to_show : let s := Subset (Some "other") None None in
  m_show s g_ap (hconn (idx pc) (idx pb) 6 80 0 1 1) /\ ~ m_show s g_ap (hconn (idx pa) (idx pb) 6 80 0 1 1) /\
  ~ m_show s g_ap (hconn (idx pc) (idx pa) 6 80 0 1 1) /\ m_show s g_ap (hconn (idx pc) (idx pa) 17 80 0 1 1).
Proof.
  cbv zeta. assert (Yes : forall d pr, inside (hconn (idx pc) (idx d) pr 80 0 1 1) (all_allowed (config_conns qA (g_peers g_ap) (lays (g_pols g_ap)) only_all_allowed)) = true ->
    a_src ex_reg (hconn (idx pc) (idx d) pr 80 0 1 1) = PN 0 "ns/c" -> (exists n, a_dst ex_reg (hconn (idx pc) (idx d) pr 80 0 1 1) = PN 0 n) ->
    m_show (Subset (Some "other") None None) g_ap (hconn (idx pc) (idx d) pr 80 0 1 1)).
  { intros d pr E E1 [n E2]. split; [exact (proj1 (inside_spec _ (all_allowed (config_conns qA (g_peers g_ap) (lays (g_pols g_ap)) only_all_allowed))) E)|]. clear E. split.
    - unfold looks_at. rewrite E1, E2. cbn. repeat split; try tauto; try discriminate.
    - left. rewrite E1. right. left. exists "other". split; [reflexivity|]. exists "other". split; [reflexivity|]. split; [discriminate|left; reflexivity]. }
  split; [apply Yes; [vm_compute; reflexivity..|exists "ns/b"; vm_compute; reflexivity]|].
  split.
  - intros (_ & _ & H). assert (E1 : a_src ex_reg (hconn (idx pa) (idx pb) 6 80 0 1 1) = PN 0 "ns/a") by (vm_compute; reflexivity). assert (E2 : a_dst ex_reg (hconn (idx pa) (idx pb) 6 80 0 1 1) = PN 0 "ns/b") by (vm_compute; reflexivity).
    rewrite E1, E2 in H. clear - H. unfold chosen, names in H. cbn in H. destruct H as [H|H]; destruct H as [(H & _)|[(t & E & l & E' & _ & H)|[(E & _)|[(m & d & _ & _ & (l & E & _) & _)|(k & m & l & ls & _ & _ & E & _)]]]]; try discriminate H; try discriminate E;
    injection E as <-; injection E' as <-; cbn in H; destruct H as [H|[]]; discriminate H.
  - split; [|apply Yes; [vm_compute; reflexivity..|exists "ns/a"; vm_compute; reflexivity]].
    intros (H & _). exact (proj1 (inside_not _ (all_allowed (config_conns qA (g_peers g_ap) (lays (g_pols g_ap)) only_all_allowed))) (eq_refl false <: inside (hconn (idx pc) (idx pa) 6 80 0 1 1) (all_allowed (config_conns qA (g_peers g_ap) (lays (g_pols g_ap)) only_all_allowed)) = false) H).
Qed.
(** The map of the deployment web shows the connection of pod b, of the deployment webserver, with pod c, which has no owner: a name is looked for
    anywhere in the names of owners (NetworkConfigQuery.py:701-709). *)
Definition of_deployment (d : string) (x : point) : Prop := exists m, x = PN 0 m /\ m_owner (Named 0 m) = d.
Theorem C63_deployment_refuted : exists s g pt out, sub_ns s = None /\ sub_dep s = Some "web" /\ sub_labels s = None /\ good ex_reg q_vis g /\ answerable ex_reg q_vis None g /\
  m_map s g = Some out /\ a_space q_dom pt /\ shown ex_reg ex_cl (snd (map_conns ex_cl m_owner m_workload qA qQ no6 true s g)) out pt /\ a_src ex_reg pt <> a_dst ex_reg pt /\
  ~ of_deployment "web" (a_src ex_reg pt) /\ ~ of_deployment "web" (a_dst ex_reg pt).
Proof.
  set (s := Subset None (Some "web") None). set (pt := hconn (idx pb) (idx pc) 6 80 0 1 1).
  assert (E1 : a_src ex_reg pt = PN 0 "ns/b") by (vm_compute; reflexivity). assert (E2 : a_dst ex_reg pt = PN 0 "ns/c") by (vm_compute; reflexivity).
  assert (N6 : pt 6 <> 0%Z) by discriminate. assert (N7 : pt 7 <> 0%Z) by discriminate. assert (Sp : a_space q_dom pt) by (subst pt; qhspace).
  destruct (m_case s g_all g_all_good (proj1 g_all_ans)) as (out & E & _ & B). exists s, g_all, pt, out.
  split; [reflexivity|]. split; [reflexivity|]. split; [reflexivity|]. split; [exact g_all_good|]. split; [exact (proj1 g_all_ans)|]. split; [exact E|]. split; [exact Sp|].
  split; [|rewrite E1, E2; split; [discriminate|]; split; intros (m & X & Y); injection X as <-; clear - Y; discriminate Y].
  clear E. refine (B pt Sp N6 N7 _). clear B. split; [|split].
  - exact (proj1 (inside_spec _ (all_allowed (config_conns qA (g_peers g_all) (lays (g_pols g_all)) only_all_allowed))) (eq_refl true <: inside (hconn (idx pb) (idx pc) 6 80 0 1 1) (all_allowed (config_conns qA (g_peers g_all) (lays (g_pols g_all)) only_all_allowed)) = true)).
  - unfold looks_at. rewrite E1, E2. cbn. repeat split; try tauto; try discriminate.
  - left. rewrite E1. right. right. right. left. exists "ns/b", "web". split; [reflexivity|]. split; [discriminate|]. split; [exists "web"; split; [reflexivity|split; [discriminate|left; reflexivity]]|].
    exists "", "server". reflexivity.
Qed.
(** The switch --label_subset app:web,app:db asks for endpoints with both labels; it selects those with app=db: a dictionary keeps the last value
    (nca_cli.py:176-186). *)
Theorem C63_repeated_key_refuted : exists t d x, label_switch t = Some d /\ split "," t = ["app:web"; "app:db"] /\
  chosen ex_cl m_owner m_workload (Subset None None (Some [d])) x /\ forall k m, x = PN k m -> ~ In ("app", "web") (cl_labels ex_cl (Named k m)).
Proof.
  exists "app:web,app:db", [("app", "db")], (PN 0 "ns/b"). split; [reflexivity|]. split; [reflexivity|]. split.
  - right. right. right. right. exists 0, "ns/b", [[("app", "db")]], [("app", "db")]. split; [reflexivity|]. split; [discriminate|]. split; [reflexivity|]. split; [left; reflexivity|].
    intros key v [E|[]]. injection E as <- <-. left. reflexivity.
  - intros k m E. injection E as <- <-. intros [H|[]]. discriminate H.
Qed.
Print Assumptions C63_deployment_refuted.
Print Assumptions C63_repeated_key_refuted.
