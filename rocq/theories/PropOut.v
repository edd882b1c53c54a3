(** * C78-C80: the answers of queries as texts and dictionaries.

    C78: the number of an answer is the number of the items its explanation lists, and the items are the right ones.
    C79: the texts of explanations lose nothing: equal texts come from equal lists.
    C80: the dictionaries (yaml, json) of emptiness name the same policies and rules as the answer; redundancy and missing peers: see PropOutCases.v. *)
From Coq Require Import ZArith List Bool Arith String Ascii Lia Permutation.
From Verif Require Import IntervalModel TextModel TextFacts PortProtoModel ConnTextModel GraphModel GraphFacts IpTextFacts PeerModel PolicyModel QueryModel YamlModel ExplModel ExplFacts OutModel OutFacts.
Import ListNotations.
Local Open Scope string_scope.
Local Open Scope list_scope.
Local Open Scope nat_scope.

Section Spec.
Context {C : Type}.
(** ** Specification *)
(** Policies are looked for rules in the directions of their class: AuthorizationPolicies have ingress rules, Sidecars egress rules. *)
Definition looked_at (p : @policy C) (ing : bool) : Prop :=
  match class_of (p_kind p), ing with CIstioAP, false | CSidecar, true | CBase, _ => False | _, _ => True end.
(** Rule number [i] (from 1) of a policy selects nobody. *)
Definition void_rule (p : @policy C) (ing : bool) (i : nat) : Prop :=
  looked_at p ing /\ 1 <= i /\ exists r, nth_error (if ing then p_ingress p else p_egress p) (i - 1) = Some r /\ (r_src r = [] \/ (class_of (p_kind p) = CCalico /\ r_dst r = [])).
Definition of_layers (g : @config C) (p : @policy C) : Prop := exists n ps, In (n, ps) (lays (g_pols g)) /\ In p ps.
Definition items (e : list (string * list nat)) : nat := fold_right (fun x n => List.length (snd x) + n) 0 e.
(** Titles tell the policies of the layers apart. *)
Definition told_apart (g : @config C) : Prop := NoDup (map title (layer_policies g)).
(** What an explanation of rules lists. *)
Definition lists_rules (q : @qanswer C) (pols : list string) (ing eg : list (string * list nat)) : Prop :=
  (exists d, qa_expl q = [ERules d pols ing eg]) \/ (qa_expl q = [] /\ pols = [] /\ ing = [] /\ eg = []).
(** ** Proofs *)
Lemma empty_rules_In : forall (p : @policy C) ing i, In i (empty_rules p ing) <-> void_rule p ing i.
Proof.
  intros p ing i.
  assert (K : forall c (rs : list (@rule C)), (exists j r, i = 1 + j /\ nth_error rs j = Some r /\ rule_empty c r = true) <->
              1 <= i /\ exists r, nth_error rs (i - 1) = Some r /\ (r_src r = [] \/ (c = CCalico /\ r_dst r = []))).
  { intros c rs. assert (R : forall r : @rule C, rule_empty c r = true <-> r_src r = [] \/ (c = CCalico /\ r_dst r = [])).
    { intros r. unfold rule_empty. destruct c; destruct (r_src r), (r_dst r); cbn; split; intros H; auto; try discriminate; try (destruct H as [H|[H H']]; discriminate). }
    split.
    - intros (j & r & -> & E & H). split; [lia|]. exists r. replace (1 + j - 1) with j by lia. split; auto. apply R. auto.
    - intros (L & r & E & H). exists (i - 1), r. split; [lia|]. split; auto. apply R. auto. }
  unfold empty_rules, void_rule, looked_at. destruct (class_of (p_kind p)) eqn:E, ing; cbn [In]; try (rewrite empty_from_In, K; tauto); tauto.
Qed.
Lemma in_layers : forall (g : @config C) p, In p (layer_policies g) <-> of_layers g p.
Proof.
  intros g p. unfold layer_policies, of_layers. rewrite in_flat_map. split; [intros ([n ps] & H & K); exists n, ps; auto|intros (n & ps & H & K); exists (n, ps); auto].
Qed.
Lemma entries_In : forall (f : @policy C -> list nat) ps t l, In (t, l) (entries f ps) <-> exists p, In p ps /\ t = title p /\ l = f p /\ l <> [].
Proof.
  intros f ps t l. unfold entries. rewrite in_map_iff. split.
  - intros (p & E & H). apply filter_In in H as [H N]. injection E as <- <-. exists p. repeat split; auto. destruct (f p); discriminate.
  - intros (p & H & -> & -> & N). exists p. split; auto. apply filter_In. split; auto. destruct (f p); [congruence|reflexivity].
Qed.
Lemma emptiness_shape : forall name order (g : @config C), Permutation (order (layer_policies g)) (layer_policies g) -> told_apart g ->
  lists_rules (emptiness_answer name order g) (map title (filter (fun p => negb (pbool (p_selected p))) (order (layer_policies g))))
     (entries (fun p => empty_rules p true) (order (layer_policies g))) (entries (fun p => empty_rules p false) (order (layer_policies g))).
Proof.
  intros name order g P T. unfold emptiness_answer. rewrite emptiness_num by auto. destruct (emptiness_count g =? 0) eqn:E.
  - right. apply Nat.eqb_eq in E. rewrite <- (emptiness_num order g P), count_fold in E. split; [reflexivity|].
    assert (L1 : List.length (filter (fun p => negb (pbool (p_selected p))) (order (layer_policies g))) = 0) by lia.
    assert (S1 : sum (entries (fun p => empty_rules p true) (order (layer_policies g))) = 0) by (rewrite sum_entries; lia).
    assert (S2 : sum (entries (fun p => empty_rules p false) (order (layer_policies g))) = 0) by (rewrite sum_entries; lia).
    assert (Z : forall f : @policy C -> list nat, sum (entries f (order (layer_policies g))) = 0 -> entries f (order (layer_policies g)) = []).
    { intros f H. destruct (entries f (order (layer_policies g))) as [|[t l] r] eqn:Q; auto. exfalso.
      assert (I : In (t, l) (entries f (order (layer_policies g)))) by (rewrite Q; left; auto). apply entries_In in I as (p & _ & _ & _ & N). cbn in H. destruct l; [congruence|cbn in H; lia]. }
    rewrite (Z _ S1), (Z _ S2). destruct (filter _ _); [auto|discriminate].
  - left. exists " that does not select any pods". cbn [qa_expl].
    assert (N : NoDup (map title (order (layer_policies g)))) by (eapply Permutation_NoDup; [apply Permutation_map; apply Permutation_sym; exact P|exact T]).
    rewrite !rule_lists_entries by auto. reflexivity.
Qed.

(** ** C78 *)
Theorem C78_emptiness_counts : forall name order (g : @config C), (forall l, Permutation (order l) l) -> told_apart g ->
  exists pols ing eg, lists_rules (emptiness_answer name order g) pols ing eg /\
    qa_num (emptiness_answer name order g) = Z.of_nat (List.length pols + items ing + items eg) /\
    (qa_bool (emptiness_answer name order g) = true <-> (exists p, of_layers g p /\ p_selected p = []) \/ exists p d i, of_layers g p /\ void_rule p d i) /\
    (forall t, In t pols <-> exists p, of_layers g p /\ t = title p /\ p_selected p = []) /\
    (forall t i, (exists l, In (t, l) ing /\ In i l) <-> exists p, of_layers g p /\ t = title p /\ void_rule p true i) /\
    (forall t i, (exists l, In (t, l) eg /\ In i l) <-> exists p, of_layers g p /\ t = title p /\ void_rule p false i).
Proof.
  intros name order g P0 T. assert (P := P0 (layer_policies g)). do 3 eexists. split; [apply emptiness_shape; auto|].
  assert (I : forall p, In p (order (layer_policies g)) <-> of_layers g p).
  { intros p. rewrite <- in_layers. split; apply Permutation_in; [auto|apply Permutation_sym; auto]. }
  assert (R : forall d t i, (exists l, In (t, l) (entries (fun p => empty_rules p d) (order (layer_policies g))) /\ In i l) <-> exists p, of_layers g p /\ t = title p /\ void_rule p d i).
  { intros d t i. split.
    - intros (l & H & K). apply entries_In in H as (p & H & -> & -> & _). exists p. rewrite <- I, <- empty_rules_In. auto.
    - intros (p & H & -> & K). apply empty_rules_In in K. exists (empty_rules p d). split; auto. apply entries_In. exists p. rewrite I. repeat split; auto. intros X. rewrite X in K. destruct K. }
  assert (S : forall t, In t (map title (filter (fun p : @policy C => negb (pbool (p_selected p))) (order (layer_policies g)))) <-> exists p, of_layers g p /\ t = title p /\ p_selected p = []).
  { intros t. rewrite in_map_iff. split.
    - intros (p & <- & H). apply filter_In in H as [H K]. exists p. rewrite <- I. repeat split; auto. destruct (p_selected p); [auto|discriminate].
    - intros (p & H & -> & K). exists p. split; auto. apply filter_In. rewrite I. split; auto. rewrite K. reflexivity. }
  assert (Q : qa_num (emptiness_answer name order g) = Z.of_nat (List.length (map title (filter (fun p : @policy C => negb (pbool (p_selected p))) (order (layer_policies g))))
                + items (entries (fun p => empty_rules p true) (order (layer_policies g))) + items (entries (fun p => empty_rules p false) (order (layer_policies g))))).
  { rewrite map_length. change items with sum. rewrite !sum_entries. unfold emptiness_answer.
    assert (E := count_fold (order (layer_policies g)) 0). rewrite emptiness_num in * by auto. cbn [plus] in E. rewrite <- E. destruct (emptiness_count g =? 0) eqn:Z; cbn; [apply Nat.eqb_eq in Z; rewrite Z|]; reflexivity. }
  split; [exact Q|]. split; [|split; [exact S|split; intros t i; apply R]].
  assert (B : qa_bool (emptiness_answer name order g) = true <-> (qa_num (emptiness_answer name order g) <> 0)%Z).
  { unfold emptiness_answer. rewrite emptiness_num by auto. destruct (emptiness_count g =? 0) eqn:Z; cbn [qa_bool qa_num]; [split; [discriminate|congruence]|].
    apply Nat.eqb_neq in Z. rewrite Nat.ltb_lt. lia. }
  rewrite B, Q. clear B Q. split.
  - intros N. destruct (map title (filter (fun p : @policy C => negb (pbool (p_selected p))) (order (layer_policies g)))) as [|t r] eqn:E1.
    + right. assert (X : forall d, items (entries (fun p => empty_rules p d) (order (layer_policies g))) <> 0 -> exists p d i, of_layers g p /\ void_rule p d i).
      { intros d H. destruct (entries (fun p => empty_rules p d) (order (layer_policies g))) as [|[t l] r] eqn:E; [cbn in H; congruence|].
        assert (Y : In (t, l) (entries (fun p => empty_rules p d) (order (layer_policies g)))) by (rewrite E; left; auto). apply entries_In in Y as (p & Y & -> & -> & Z).
        destruct (empty_rules p d) as [|i l] eqn:W; [congruence|]. exists p, d, i. split; [apply I; auto|]. apply empty_rules_In. rewrite W. left. auto. }
      destruct (Nat.eq_dec (items (entries (fun p => empty_rules p true) (order (layer_policies g)))) 0) as [Z|Z]; [|eapply X; eauto].
      apply (X false). cbn in N. lia.
    + left. destruct (proj1 (S t) (or_introl eq_refl)) as (p & H & _ & K). exists p. auto.
  - intros [(p & H & K)|(p & d & i & H & K)].
    + assert (Y := proj2 (S (title p)) (ex_intro _ p (conj H (conj eq_refl K)))). destruct (map title _); [destruct Y|cbn; lia].
    + assert (Y := proj2 (R d (title p) i) (ex_intro _ p (conj H (conj eq_refl K)))). destruct Y as (l & Y & Z).
      assert (W : items (entries (fun p => empty_rules p d) (order (layer_policies g))) <> 0).
      { induction (entries (fun p => empty_rules p d) (order (layer_policies g))) as [|e r IH]; [destruct Y|]. cbn. destruct Y as [->|Y]; [destruct l; [destruct Z|cbn; lia]|]. specialize (IH Y). unfold items in IH. lia. }
      destruct d; lia.
Qed.
(** Disjointness: one line per overlap. *)
Theorem C78_disjointness_counts : forall name order_common pod_names A rid (g : @config C), (forall l, Permutation (order_common l) l) ->
  let q := disjointness_answer name order_common pod_names A rid g in
  qa_num q = a_num (disjointness A rid g) /\ qa_bool q = a_bool (disjointness A rid g) /\
  ((qa_bool q = true /\ qa_num q = 0%Z /\ qa_expl q = []) \/
   exists d l, qa_bool q = false /\ qa_expl q = [EPairs d l] /\ l <> [] /\ qa_num q = Z.of_nat (List.length l) /\
     forall r, In r l <-> exists p1 p2, In (p1, p2) (overlaps A rid g) /\ r = Common (type_str p1) (full_name p1) (type_str p2) (full_name p2) (pod_names (pinter (p_selected p1) (p_selected p2)))).
Proof.
  intros name order_common pod_names A rid g P q. subst q. unfold disjointness_answer, disjointness.
  match goal with |- context [map ?h (overlaps A rid g)] => set (f := h) end.
  assert (L : List.length (map f (overlaps A rid g)) = List.length (overlaps A rid g)) by apply map_length.
  assert (I : forall r, In r (map f (overlaps A rid g)) <-> exists p1 p2, In (p1, p2) (overlaps A rid g) /\ r = Common (type_str p1) (full_name p1) (type_str p2) (full_name p2) (pod_names (pinter (p_selected p1) (p_selected p2)))).
  { intros r. rewrite in_map_iff. split; [intros ([p1 p2] & <- & H); exists p1, p2; auto|intros (p1 & p2 & H & ->); exists (p1, p2); auto]. }
  rewrite <- L. clear L. revert I. generalize (map f (overlaps A rid g)) as l. intros [|c l] I; [cbn; split; [reflexivity|split; [reflexivity|left; repeat split; reflexivity]]|]. cbn [nonempty qa_num qa_bool qa_expl a_num a_bool].
  split; [reflexivity|]. split; [reflexivity|]. right. exists "policies with overlapping captured pods", (order_common (c :: l)). split; [reflexivity|]. split; [reflexivity|].
  split; [intros X; apply (f_equal (@List.length _)) in X; rewrite (Permutation_length (P _)) in X; discriminate|].
  split; [rewrite (Permutation_length (P _)); reflexivity|].
  intros x. rewrite <- I. split; apply Permutation_in; [apply P|apply Permutation_sym, P].
Qed.
(** Captured pods: one item per name, direction and layer. *)
Definition pods_listed (e : @expl C) : nat := match e with EPods _ i o _ => List.length i + List.length o | _ => 0 end.
Definition misses (pod_name : peer -> string) (g : @config C) (pols : list (@policy C)) (ing : bool) (n : string) : Prop :=
  exists q, In q (psub (peers_group (g_peers g) false false) (affected_pods g ing pols)) /\ n = pod_name q.
Lemma uncaptured_spec : forall pod_name (g : @config C) pols ing n, In n (uncaptured pod_name g pols ing) <-> misses pod_name g pols ing n.
Proof.
  intros pod_name g pols ing n. unfold uncaptured, misses. rewrite dedup_In, in_map_iff. split; intros (q & H & K); exists q; auto.
Qed.
Lemma uncaptured_expl_count : forall pod_name (g : @config C) n layer io,
  fold_right (fun e k => pods_listed e + k) 0 (uncaptured_expl pod_name g n layer io) = uncaptured_by_layer pod_name g n io.
Proof.
  intros pod_name g n layer io. unfold uncaptured_expl, uncaptured_by_layer. destruct (lget (lays (g_pols g)) n) as [pols|]; [|reflexivity]. set (e := if io then [] else uncaptured pod_name g pols false).
  assert (L : List.length e = if io then 0 else List.length (uncaptured pod_name g pols false)) by (subst e; destruct io; reflexivity). rewrite <- L.
  destruct (_ =? 0) eqn:E; [apply Nat.eqb_eq in E; cbn; lia|]. cbn [fold_right pods_listed]. rewrite !sorted_length; [lia| |unfold uncaptured; apply dedup_nodup].
  subst e. destruct io; [constructor|unfold uncaptured; apply dedup_nodup].
Qed.
Theorem C78_captured_counts : forall name pod_name (g : @config C),
  has_policies g = true -> only_gateway_layers (lays (g_pols g)) = false ->
  let q := all_captured_answer name pod_name g in
  qa_num q = Z.of_nat (fold_right (fun e k => pods_listed e + k) 0 (qa_expl q)) /\
  qa_num q = a_num (all_captured pod_name g) /\ qa_bool q = a_bool (all_captured pod_name g) /\
  (forall n pols, lget (lays (g_pols g)) LK8sCalico = Some pols -> misses pod_name g pols true n -> exists d i o, In (EPods d i o true) (qa_expl q) /\ In n i) /\
  (forall n pols, lget (lays (g_pols g)) LK8sCalico = Some pols -> misses pod_name g pols false n -> exists d i o, In (EPods d i o true) (qa_expl q) /\ In n o) /\
  (forall n pols, lget (lays (g_pols g)) LIstio = Some pols -> misses pod_name g pols true n -> exists d i o, In (EPods d i o true) (qa_expl q) /\ In n i) /\
  (forall d i o s n, In (EPods d i o s) (qa_expl q) -> (In n i -> exists l pols, lget (lays (g_pols g)) l = Some pols /\ misses pod_name g pols true n) /\
                                                      (In n o -> exists pols, lget (lays (g_pols g)) LK8sCalico = Some pols /\ misses pod_name g pols false n)).
Proof.
  intros name pod_name g HP HG q. subst q. unfold all_captured_answer, all_captured. rewrite HP, HG. cbn [negb orb].
  set (k := uncaptured_by_layer pod_name g LK8sCalico false). set (i := uncaptured_by_layer pod_name g LIstio true).
  set (ek := uncaptured_expl pod_name g LK8sCalico "K8s_Calico" false). set (ei := uncaptured_expl pod_name g LIstio "Istio" true).
  assert (Ck : fold_right (fun e k => pods_listed e + k) 0 ek = k) by apply uncaptured_expl_count.
  assert (Ci : fold_right (fun e k => pods_listed e + k) 0 ei = i) by apply uncaptured_expl_count.
  assert (L0 : forall X (l : list X) x, List.length l = 0 -> In x l -> False) by (intros X [|y l] x E H; [destruct H|discriminate]).
  destruct ((k =? 0) && (i =? 0)) eqn:E.
  - apply andb_true_iff in E as [Ek Ei]. apply Nat.eqb_eq in Ek, Ei. cbn. do 3 (split; [reflexivity|]).
    assert (W : forall n io pols x, lget (lays (g_pols g)) n = Some pols -> uncaptured_by_layer pod_name g n io = 0 -> (misses pod_name g pols true x -> False) /\ (io = false -> misses pod_name g pols false x -> False)).
    { intros n io pols x HL Z. unfold uncaptured_by_layer in Z. rewrite HL in Z. split; intros *; rewrite <- !uncaptured_spec.
      - apply L0. lia.
      - intros ->. apply L0. lia. }
    split; [|split; [|split]].
    + intros n pols HL H. destruct (W _ _ pols n HL Ek) as [X _]. destruct (X H).
    + intros n pols HL H. destruct (W _ _ pols n HL Ek) as [_ X]. destruct (X eq_refl H).
    + intros n pols HL H. destruct (W _ _ pols n HL Ei) as [X _]. destruct (X H).
    + intros d a b s n [].
  - cbn [qa_num qa_bool qa_expl a_num a_bool]. split; [|split; [reflexivity|split; [reflexivity|]]].
    { f_equal. assert (F : forall l m : list (@expl C), fold_right (fun e k => pods_listed e + k) 0 (l ++ m) = fold_right (fun e k => pods_listed e + k) 0 l + fold_right (fun e k => pods_listed e + k) 0 m).
      { induction l as [|x l IH]; intros m; cbn; auto. rewrite IH. lia. }
      rewrite F, Ck, Ci. reflexivity. }
    clear E.
    assert (Has : forall n layer io pols x, lget (lays (g_pols g)) n = Some pols ->
              (misses pod_name g pols true x -> exists d a b, In (EPods d a b true) (uncaptured_expl pod_name g n layer io) /\ In x a) /\
              (io = false -> misses pod_name g pols false x -> exists d a b, In (EPods d a b true) (uncaptured_expl pod_name g n layer io) /\ In x b)).
    { intros n layer io pols x HL. unfold uncaptured_expl. rewrite HL. split.
      - intros H. apply uncaptured_spec in H. destruct (_ =? 0) eqn:Z; [apply Nat.eqb_eq in Z; cbv iota in Z; exfalso; eapply L0; [|exact H]; lia|].
        do 3 eexists. split; [left; reflexivity|]. apply sorted_set_In. auto.
      - intros -> H. apply uncaptured_spec in H. destruct (_ =? 0) eqn:Z; [apply Nat.eqb_eq in Z; cbv iota in Z; exfalso; eapply L0; [|exact H]; lia|].
        do 3 eexists. split; [left; reflexivity|]. apply sorted_set_In. auto. }
    assert (Only : forall n layer io d a b s x, In (EPods d a b s) (uncaptured_expl pod_name g n layer io) -> exists pols, lget (lays (g_pols g)) n = Some pols /\
              (In x a -> misses pod_name g pols true x) /\ (In x b -> io = false /\ misses pod_name g pols false x)).
    { intros n layer io d a b s x H. unfold uncaptured_expl in H. destruct (lget (lays (g_pols g)) n) as [pols|]; [|destruct H]. destruct (_ =? 0); [destruct H|].
      destruct H as [H|[]]. injection H as _ <- <- _. exists pols. split; auto. split; intros H; apply (proj1 (sorted_set_In _ _)) in H.
      - apply uncaptured_spec. auto.
      - destruct io; [destruct H|]. split; auto. apply uncaptured_spec. auto. }
    split; [|split; [|split]].
    + intros n pols HL H. destruct (Has _ "K8s_Calico" false pols n HL) as [X _]. destruct (X H) as (d & a & b & Y & Z). exists d, a, b. split; auto. apply in_app_iff. left. exact Y.
    + intros n pols HL H. destruct (Has _ "K8s_Calico" false pols n HL) as [_ X]. destruct (X eq_refl H) as (d & a & b & Y & Z). exists d, a, b. split; auto. apply in_app_iff. left. exact Y.
    + intros n pols HL H. destruct (Has _ "Istio" true pols n HL) as [X _]. destruct (X H) as (d & a & b & Y & Z). exists d, a, b. split; auto. apply in_app_iff. right. exact Y.
    + intros d a b s n H. apply in_app_iff in H as [H|H].
      * destruct (Only _ _ _ _ _ _ _ n H) as (pols & HL & X & Y). split; intros K; [exists LK8sCalico, pols; auto|]. exists pols. destruct (Y K). auto.
      * destruct (Only _ _ _ _ _ _ _ n H) as (pols & HL & X & Y). split; intros K; [exists LIstio, pols; auto|]. destruct (Y K). discriminate.
Qed.
End Spec.
