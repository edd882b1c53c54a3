(** * C82 for the equivalence query, and cases. *)
From Coq Require Import ZArith List Bool Arith Lia String Ascii.
From Verif Require Import IntervalModel IntervalFacts HyperModel HyperFacts HyperTop HyperInst PropHyperCube ConnModel ConnFacts TextModel TextFacts PortProtoModel PeerModel PeerFacts PeerSetFacts
                          PolicyModel PolicyLaws PolicyFacts LayerFacts OrderFacts ConnAlg StdDims PropLayers QueryModel QueryFacts QueryAlg QuerySpecs YamlModel ClusterModel
                          FWModel FWFacts FWAlg FWLabels PropFW MapModel MapFacts GraphModel ConnTextModel ConnTextFacts ConnListModel ConnListFacts PropMap PropQueries DiffTextModel PropDiffText DiffListModel PropDiffList PropQueryCases.
Import ListNotations.
Local Open Scope string_scope.
Local Open Scope list_scope.
Local Open Scope nat_scope.

Section Equiv.
Context (reg vis : list peer) (R : reg_ok reg) (HV : container reg vis) (NE : vis <> []) (allp : peerset) (rid : rule -> rule -> bool) (RS : forall r s, rid r s = true -> r = s) (h6 : policy -> bool).
Let dom := query_dom reg vis.
Let QK := query_alg reg vis R HV NE.
Let A := cube_ops dom std_all reg.
Let Q := cube_qops dom std_all reg.
Let L := q_claws dom std_rest reg vis _ _ QK.
Let QL := q_qlaws dom std_rest reg vis _ _ QK.
Let NB : forall p, In p vis -> is_block p = false := fun p H => proj2 (HV p H).
Local Notation space := (a_space dom).
(** A connection looked at that the one configuration allows and the other does not. *)
Definition only_in (flag : bool) (on : option lname) (g1 g2 g g' : config) (pt : conn) : Prop := looks_at reg h6 flag g1 g2 pt /\ connects reg vis on g pt /\ ~ connects reg vis on g' pt.
(** If configurations with the same peers are found not equivalent, the list with full explanations has exactly the connections only one of them allows, on the side of
    that one (with a non-empty host and path), and the list without them has a true entry for each side that allows more. *)
Theorem C82_equivalence : forall flag g1 g2 on, good reg vis g1 -> good reg vis g2 -> answerable reg vis on g1 -> answerable reg vis on g2 -> in_same_order reg vis rid g1 g2 -> same_peers g1 g2 ->
  let a := equivalence A Q h6 rid flag g1 g2 on in a_bool a = false ->
  exists d1 d2 l l', a_expl a = [d1; d2] /\ diff_list dom reg allp true d1 d2 = Some l /\ diff_list dom reg allp false d1 d2 = Some l' /\
  (forall (b : bool) e pt, In (b, e) l \/ In (b, e) l' -> space pt -> in_entry reg e pt -> only_in flag on g1 g2 (if b then g1 else g2) (if b then g2 else g1) pt) /\
  (forall (b : bool) pt, space pt -> pt 6 <> 0%Z -> pt 7 <> 0%Z -> only_in flag on g1 g2 (if b then g1 else g2) (if b then g2 else g1) pt -> exists e, In (b, e) l /\ in_entry reg e pt) /\
  (forall (b : bool) pt, space pt -> only_in flag on g1 g2 (if b then g1 else g2) (if b then g2 else g1) pt -> exists e, In (b, e) l').
Proof using R HV NE RS.
  intros flag g1 g2 on G1 G2 S1 S2 Or X a Ea. destruct (dom_words reg vis) as (W6 & W7 & Ww).
  destruct (equivalence_spec A Q (q_src reg) (q_dst reg) a_tcp (q_space dom) a_mem (q_ok dom std_rest) (a_safe std_rest) vis q_put L QL NB rid RS h6 flag g1 g2 on
     (good_cfg reg vis R HV NE _ G1) (good_cfg reg vis R HV NE _ G2) (answer_ok reg vis _ _ S1) (answer_ok reg vis _ _ S2) (order_ok reg vis rid _ _ G1 G2 Or)) as [_ H2].
  fold a in H2. destruct (H2 X) as (_ & _ & _ & _ & K5). destruct (K5 Ea) as (d1 & d2 & E1 & O1 & O2 & M). clear H2 K5.
  destruct (C82_all_differences dom reg vis _ QK W6 W7 Ww allp d1 d2 O1 O2) as (l & El & F1 & F2). destruct (C82_one_difference dom reg vis _ QK W6 W7 Ww allp d1 d2 O1 O2) as (l' & El' & G & _ & G').
  exists d1, d2, l, l'. split; [exact E1|]. split; [exact El|]. split; [exact El'|].
  assert (Me : forall (b : bool) pt, space pt -> (a_mem pt (if b then d1 else d2) <-> only_in flag on g1 g2 (if b then g1 else g2) (if b then g2 else g1) pt)).
  { intros b pt Sp. unfold only_in. rewrite <- looks_rel. destruct (M pt Sp) as [M1 M2].
    pose proof (connects_on reg vis R HV NE on g1 pt G1 S1 Sp) as C1. pose proof (connects_on reg vis R HV NE on g2 pt G2 S2 Sp) as C2. fold dom A in C1, C2. unfold q_src, q_dst in *. destruct b; tauto. }
  split; [|split].
  - intros b e pt H Sp I. apply (Me b pt Sp). destruct H as [H|H]; [destruct (F1 b e H) as (_ & _ & _ & Y)|destruct (G b e H) as (_ & _ & _ & Y)]; apply Y; auto.
  - intros b pt Sp N6 N7 H. apply F2; [exact Sp|split; assumption|]. apply (Me b pt Sp). exact H.
  - intros b pt Sp H. apply (G' b pt Sp). apply (Me b pt Sp). exact H.
Qed.
End Equiv.

(** ** Cases *)
(** The list for two configurations: names of peers and the text of the difference. *)
Definition c_diffs (full : bool) (g1 g2 : config) : option (list (bool * (list string * list string * option string))) :=
  match a_expl (equivalence qA qQ no6 rid0 true g1 g2 None) with
  | [d1; d2] => match diff_list q_dom ex_reg q_vis full d1 d2 with
     | Some l => Some (map (fun be => match be with (b, (x, s, d)) => (b, (map pod_name s, map pod_name d, entry_diff q_dom d_rep "c1" "c2" b x)) end) l) | None => None end
  | _ => None
  end.
Example ex_C82_tcp : c_diffs true g_all g_tcp = Some [(true, (["ns/b"], ["ns/a"], Some "c1 allows communication on [protocols=HOPOPT] while c2 does not"))] /\
  c_diffs true g_tcp g_all = Some [(false, (["ns/b"], ["ns/a"], Some "c2 allows communication on [protocols=HOPOPT] while c1 does not"))].
Proof. split; vm_compute; reflexivity. Qed.
Example ex_C82_both : c_diffs true g_tcp g_c = Some
    [(true, (["ns/a"; "ns/b"; "ns/c"; "0.0.0.0-255.255.255.255"], ["ns/c"], Some "c1 allows all connections while c2 does not."));
     (false, (["ns/b"], ["ns/a"], Some "c2 allows communication on [protocols=HOPOPT] while c1 does not"));
     (false, (["ns/a"; "ns/c"; "0.0.0.0-255.255.255.255"], ["ns/a"], Some "c2 allows all connections while c1 does not."))] /\
  c_diffs false g_tcp g_c = Some
    [(true, (["ns/a"; "ns/b"; "ns/c"; "0.0.0.0-255.255.255.255"], ["ns/c"], Some "c1 allows all connections while c2 does not."));
     (false, (["ns/b"], ["ns/a"], Some "c2 allows communication on [protocols=HOPOPT] while c1 does not"))].
Proof. split; vm_compute; reflexivity. Qed.
Print Assumptions C82_equivalence.
Print Assumptions C82_texts.
