(** * C62: the label expressions printed in firewall rules describe the pods of the rules. *)
From Coq Require Import ZArith List Bool Arith Lia String Ascii.
From Verif Require Import IntervalModel IntervalFacts HyperModel HyperFacts HyperTop HyperInst PropHyperCube ConnModel ConnFacts TextModel PortProtoModel PeerModel PeerFacts PeerSetFacts
                          PolicyModel PolicyLaws PolicyFacts LayerFacts ConnAlg StdDims PropLayers QueryModel QueryFacts QueryAlg YamlModel ClusterModel PropSelectors PropQueryCases
                          FWModel FWFacts FWAlg FWLabels PropFW PropFWCases FWTextModel FWTextFacts.
Import ListNotations.
Local Open Scope string_scope.
Local Open Scope list_scope.
Local Open Scope nat_scope.

(** [read_expr] of FWTextFacts.v reads a text by the grammar
      text = clause { " and " clause },  clause = either | "{" either "}",  either = atom [ " or " atom ],
      atom = "!has(" key ")" | "has(" key ")" | "(has(" key ") and " comparison ")" | comparison,
      comparison = key "=" value | key "!=" value | key " in (" values ")" | key " not in (" values ")",
    and [holds] says which labels satisfy an expression. *)
Section Texts.
Context (cl : cluster) (peers : peerset) (allowed : list string).
Context (LP : labels_plain cl (without_ip_block peers)) (LT : labels_text cl peers).
Notation info := (cluster_info cl peers allowed).
(** The pods of the namespace that an element made from labels stands for. *)
Definition pod_of (n : ns) (k : nat) (m : string) : Prop := In (Named k m) peers /\ cl_ns cl (Named k m) = n.
Definition stands_for (key : string) (vs : list string) (n : ns) (k : nat) (m : string) : Prop := describes cl peers (ELabels key vs n) (PN k m).
(** For each label of the key, the pod has the value of some element of [vs]. *)
Definition in_box (key : string) (vs : list string) (p : peer) : Prop :=
  forall i x, nth_error (split ":" key) i = Some x -> exists v w, In v vs /\ nth_error (split ":" v) i = Some w /\
    (In (x, w) (cl_labels cl p) \/ w = invalid_val /\ forall u, ~ In (x, u) (cl_labels cl p)).
(** C62.  The text of an element made from labels is a label expression; the pods of the namespace that satisfy it are those of the
    element if the key is one label; also if the element has all the pods of the namespace that have all the labels of the key, and if it
    has all the pods of the box of its values; in any case they include those of the element and are in the box of its values. *)
Theorem C62_label_text : forall key vs n, elem_good cl info (ELabels key vs n) ->
  exists t e, label_text info key vs n = Some t /\ read_expr t = Some e /\
    (forall k m, pod_of n k m -> stands_for key vs n k m -> holds (cl_labels cl (Named k m)) e) /\
    (forall k m, pod_of n k m -> holds (cl_labels cl (Named k m)) e -> in_box key vs (Named k m)) /\
    (has_char ":" key = false \/
     (forall k m, pod_of n k m -> (stands_for key vs n k m <-> forall x, In x (split ":" key) -> exists w, In (x, w) (cl_labels cl (Named k m)))) \/
     (forall k m, pod_of n k m -> in_box key vs (Named k m) -> stands_for key vs n k m) ->
     forall k m, pod_of n k m -> (holds (cl_labels cl (Named k m)) e <-> stands_for key vs n k m)).
Proof using LP LT.
  intros key vs n (Ga & Nv & G). destruct (label_reads cl peers allowed LP LT key vs n Ga Nv G) as (t & e & Et & Er & S1 & S2 & S3). exists t, e. split; [exact Et|]. split; [exact Er|].
  assert (P : forall p, In p (ns_pods cl info n) <-> exists k m, p = Named k m /\ pod_of n k m).
  { intros p. rewrite ns_pod. unfold without_ip_block. rewrite filter_In, negb_true_iff. split.
    - intros [[H1 H2] H3]. destruct p as [k m|l]; [|discriminate]. exists k, m. split; [reflexivity|]. split; auto.
    - intros (k & m & -> & H1 & H2). split; auto. }
  assert (D : forall k m, pod_of n k m -> (stands_for key vs n k m <-> exists v, In v vs /\ carries cl key v (Named k m))).
  { intros k m [H1 H2]. unfold stands_for. cbn [describes]. split; [intros (k' & m' & E & _ & _ & H); injection E as -> ->; exact H|intros H; exists k, m; auto]. }
  assert (A1 : forall k m, pod_of n k m -> stands_for key vs n k m -> holds (cl_labels cl (Named k m)) e).
  { intros k m Hp H. apply S1; [apply P; exists k, m; auto|]. apply D; auto. }
  assert (A2 : forall k m, pod_of n k m -> holds (cl_labels cl (Named k m)) e -> in_box key vs (Named k m)).
  { intros k m Hp H. apply (S2 (Named k m)); [apply P; exists k, m; auto|exact H]. }
  split; [exact A1|]. split; [exact A2|]. intros C k m Hp. split; [|apply A1; exact Hp]. intros H. destruct C as [C|[C|C]].
  - apply D; auto. destruct (A2 k m Hp H 0 key) as (v & w & Hv & Hw & Hc); [rewrite TextFacts.split_nochar by exact C; reflexivity|].
    assert (Ev : v = w).
    { destruct (G v Hv) as (q & Hq & _). apply label_value in Hq as (ws & J & ->); auto. destruct (joint_free _ _ _ _ _ LP J) as [L F]. rewrite TextFacts.split_nochar in L by exact C. destruct ws as [|a [|b ws]]; try discriminate.
      cbn [String.concat] in *. inversion F; subst. rewrite TextFacts.split_nochar in Hw by auto. cbn in Hw. congruence. }
    subst w. exists v. split; auto. exists [v]. split; [rewrite TextFacts.split_nochar by exact C; constructor; [exact Hc|constructor]|reflexivity].
  - apply D; auto. apply S3; [|apply P; exists k, m; auto|exact H]. intros p Hq. apply P in Hq as (k' & m' & -> & Hq). rewrite <- D by exact Hq. apply C. exact Hq.
  - apply C; auto.
Qed.
(** The elements made from labels in the computed rules. *)
Theorem C62_rules_text : forall reg vis single restr h r p l s d, fw_rules reg vis cl peers allowed single restr h = Some r -> In (p, l) r -> In (s, d) l ->
  forall key vs n, s = ELabels key vs n \/ d = ELabels key vs n -> has_char ":" key = false ->
  exists t e, label_text info key vs n = Some t /\ read_expr t = Some e /\
    forall k m, pod_of n k m -> (holds (cl_labels cl (Named k m)) e <-> stands_for key vs n k m).
Proof using LP LT.
  intros reg vis single restr h r p l s d E Hp Hs key vs n He C. pose proof (minimized_good cl info _ _ _ single restr h r E p l Hp (s, d) Hs) as [G1 G2]. cbn [fst snd] in *.
  assert (G : elem_good cl info (ELabels key vs n)) by (destruct He as [<-|<-]; auto). destruct (C62_label_text key vs n G) as (t & e & H1 & H2 & _ & _ & H3). exists t, e. auto.
Qed.
End Texts.
Print Assumptions C62_label_text.
Print Assumptions C62_rules_text.

(** ** Examples *)
(** Three pods of one namespace. *)
Definition t_cl : cluster :=
  {| cl_peers := [pa; pb; pc];
     cl_labels := fun p => if peer_eqb p pa then [("app", "x"); ("role", "1")] else if peer_eqb p pb then [("app", "y"); ("role", "2")]
                           else if peer_eqb p pc then [("app", "x"); ("role", "2")] else [];
     cl_extra := fun _ => []; cl_ns := fun p => if peer_eqb p dns then None else Some "ns"; cl_nslabels := fun _ => []; cl_ports := fun _ => [] |}.
Ltac three H := cbn in H; destruct H as [<-|[<-|[<-|[<-|[]]]]].
Lemma t_plain : labels_plain t_cl (without_ip_block q_vis).
Proof.
  intros p H. three H; (split; [repeat constructor; cbn; intuition discriminate|]); intros k v Hv; cbn in Hv; repeat (destruct Hv as [E|Hv]; [injection E as <- <-; repeat split; discriminate|]); destruct Hv.
Qed.
Lemma t_text : labels_text t_cl q_vis.
Proof.
  intros p k v H. three H; intros Hv; cbn in Hv; repeat (destruct Hv as [E|Hv]; [injection E as <- <-; split; [split; [discriminate|reflexivity]|reflexivity]|]); destruct Hv.
Qed.
Lemma ex_text : labels_text ex_cl q_vis.
Proof.
  intros p k v H. three H; intros Hv; cbn in Hv; repeat (destruct Hv as [E|Hv]; [injection E as <- <-; split; [split; [discriminate|reflexivity]|reflexivity]|]); destruct Hv.
Qed.
Definition t_rules (allowed : list string) (h : hc val) := shape (fw_rules ex_reg q_vis t_cl q_vis allowed true None h).
Definition t_label (allowed : list string) := label_text (cluster_info t_cl q_vis allowed).
Definition q_label (allowed : list string) := label_text (cluster_info ex_cl q_vis allowed).
(** The rules of PropFWCases: app=db and app=web in the namespace ns.  The pod without the label tier. *)
Example ex_label_texts :
  q_label ["app"; "tier"] "app" ["db"] (Some "ns") = Some "app=db" /\
  q_label ["app"; "tier"] "app" ["web"; "db"] (Some "ns") = Some "has(app)" /\
  q_label ["app"; "tier"] "tier" [invalid_val] (Some "ns") = Some "!has(tier)" /\
  q_label ["app"; "tier"] "tier" [invalid_val; "front"] (Some "ns") = Some "!has(tier) or tier=front" /\
  q_label ["app:tier"] "app:tier" ["db:" ++ invalid_val]%string (Some "ns") = Some "!has(tier) and app=db" /\
  map (fun t => read_expr t) ["app=db"; "!has(tier) or tier=front"; "!has(tier) and app=db"; "app not in (a,b)"; "{!has(k) or (has(k) and k!=v)} and has(j)"; "app in a"] =
  [Some (OneOf "app" ["db"]); Some (Either (HasNot "tier") (OneOf "tier" ["front"])); Some (Both (HasNot "tier") (OneOf "app" ["db"])); Some (NoneOf "app" ["a"; "b"]);
   Some (Both (Either (HasNot "k") (Both (Has "k") (NoneOf "k" ["v"]))) (Has "j")); None].
Proof. repeat apply conj; vm_compute; reflexivity. Qed.
Example ex_label_rule : exists r, q_rules ["app"; "tier"] true None (of_rects f_rects) = Some r /\ exists p l s d, In (p, l) r /\ In (s, d) l /\ s = ELabels "app" ["db"] (Some "ns") /\
  exists t e, label_text (cluster_info ex_cl q_vis ["app"; "tier"]) "app" ["db"] (Some "ns") = Some t /\ read_expr t = Some e /\
    forall k m, pod_of ex_cl q_vis (Some "ns") k m -> (holds (cl_labels ex_cl (Named k m)) e <-> stands_for ex_cl q_vis "app" ["db"] (Some "ns") k m).
Proof.
  pose proof (proj1 ex_rules_shape) as E. destruct (q_rules ["app"; "tier"] true None (of_rects f_rects)) as [r|] eqn:Er; [|discriminate]. exists r. split; [reflexivity|].
  assert (X : exists p l, In (p, l) r /\ In (ELabels "app" ["db"] (Some "ns"), EDns dns) l).
  { clear Er. unfold shape, option_map in E. destruct r as [|[p0 l0] [|[p1 l1] r]]; [discriminate E|discriminate E|]. exists p1, l1. split; [right; left; reflexivity|]. cbn [map snd] in E. injection E as _ E1 _. rewrite E1. right. left. reflexivity. }
  destruct X as (p & l & Hp & Hs). exists p, l, (ELabels "app" ["db"] (Some "ns")), (EDns dns). split; [exact Hp|]. split; [exact Hs|]. split; [reflexivity|].
  exact (C62_rules_text ex_cl q_vis ["app"; "tier"] ex_plain ex_text ex_reg q_vis true None (of_rects f_rects) r p l _ _ Er Hp Hs "app" ["db"] (Some "ns") (or_introl eq_refl) eq_refl).
Qed.
(** Not for a key of two labels: pods a and b have the values x:1 and y:2 of app:role.  The rule for their connections prints
    "has(app) and has(role)", which pod c satisfies also. *)
Definition t_rects : rects := [([pa; pb], [dns], None)].
Theorem C62_two_labels_refuted :
  t_rules ["app:role"] (of_rects t_rects) = Some [[(ELabels "app:role" ["x:1"; "y:2"] (Some "ns"), EDns dns)]] /\
  t_label ["app:role"] "app:role" ["x:1"; "y:2"] (Some "ns") = Some "has(app) and has(role)" /\
  (exists e, read_expr "has(app) and has(role)" = Some e /\ holds (cl_labels t_cl pc) e) /\
  pod_of t_cl q_vis (Some "ns") 0 "ns/c" /\ ~ stands_for t_cl q_vis "app:role" ["x:1"; "y:2"] (Some "ns") 0 "ns/c".
Proof.
  split; [vm_compute; reflexivity|]. split; [vm_compute; reflexivity|]. split; [eexists; split; [vm_compute; reflexivity|]|].
  - cbn. split; [exists "x"|exists "2"]; auto.
  - split; [split; [right; right; left; reflexivity|reflexivity]|]. intros (k & m & E & _ & _ & v & Hv & ws & F & Ew). injection E as <- <-. change (split ":" "app:role") with ["app"; "role"] in F.
    inversion F as [|? w1 ? ? H1 F1]; subst. inversion F1 as [|? w2 ? ? H2 F2]; subst. inversion F2; subst. clear F F1 F2.
    assert (W : w1 = "x" /\ w2 = "2").
    { cbn in H1, H2. split.
      - destruct H1 as [[H1|[H1|[]]]|[_ H1]]; [injection H1 as <-; reflexivity|discriminate H1|]. destruct (H1 "x"). left. reflexivity.
      - destruct H2 as [[H2|[H2|[]]]|[_ H2]]; [discriminate H2|injection H2 as <-; reflexivity|]. destruct (H2 "2"). right. left. reflexivity. }
    destruct W as [-> ->]. destruct Hv as [Hv|[Hv|[]]]; discriminate.
Qed.
Print Assumptions C62_two_labels_refuted.
