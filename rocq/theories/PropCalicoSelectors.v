(** * C50: Calico selectors select what their expression says.

    The texts of selectors and their meaning ([denotes], [sat], [gsat]) are in CalicoSelectorFacts.v; which object
    carries which label ([pod_has], [ns_has]) is in SelectorFacts.v.  None of these mentions the parser. *)
From Coq Require Import ZArith List Bool Arith Lia String Ascii.
From Verif Require Import IntervalModel TextModel PortProtoModel PeerModel PeerFacts PeerSetFacts PolicyModel YamlModel ClusterModel
                          StdDims SelectorFacts PropSelectors CalicoSelectorModel CalicoSelectorFacts CalicoSelectorGram CalicoSelectorSets.
Import ListNotations.
Local Open Scope char_scope.
Local Open Scope string_scope.
Local Open Scope list_scope.
Local Open Scope nat_scope.

(** A selector over endpoints, for the endpoints of a namespace or (ns = None) for all pods and host endpoints: it is
    accepted and selects exactly the endpoints whose labels satisfy the expression. *)
Theorem C50_endpoint_selector : forall cl ns s e, cluster_ok cl -> denotes s e -> mentions_global e = false ->
  exists r, calico_selector cl ns false (YStr s) = Some r /\ plain r /\
    forall q, In q r <-> In q (cl_peers cl) /\ match ns with None => is_dns q = false | Some n => cl_ns cl q = Some n end /\
                         sat (pod_has cl q) e.
Proof.
  intros cl ns s e Hc Hd Hg. destruct (selector_pods cl Hc ns s e Hd Hg) as (r & E & P & I). exists r. split; auto. split; auto.
  intros q. rewrite I. unfold in_scope. tauto.
Qed.
(** A namespace selector is accepted and selects exactly the pods of the namespaces whose labels satisfy the expression, and
    the host endpoints if the expression holds of an object in no namespace. *)
Theorem C50_namespace_selector : forall cl ns s e, cluster_ok cl -> kinds_ok cl -> denotes s e ->
  exists r, calico_selector cl ns true (YStr s) = Some r /\ plain r /\
    forall q, In q r <-> In q (cl_peers cl) /\ ((cl_ns cl q <> None /\ sat (ns_has cl q) e) \/ (is_hep q = true /\ gsat e)).
Proof. intros cl ns s e Hc Hk Hd. exact (selector_namespaces cl Hc Hk ns s e Hd). Qed.
(** Two readings of the same text select the same endpoints: precedence and brackets are unambiguous. *)
Theorem C50_reading_unique : forall s e f, denotes s e -> denotes s f -> mentions_global e = false -> mentions_global f = false ->
  forall cl q, cluster_ok cl -> In q (cl_peers cl) -> is_dns q = false -> (sat (pod_has cl q) e <-> sat (pod_has cl q) f).
Proof.
  intros s e f He Hf Ge Gf cl q Hc Hq Hd.
  destruct (C50_endpoint_selector cl None s e Hc He Ge) as (r & E & _ & I). destruct (C50_endpoint_selector cl None s f Hc Hf Gf) as (r' & E' & _ & I').
  assert (r = r') by congruence. subst r'. specialize (I q). specialize (I' q). tauto.
Qed.

(** ** Examples *)
Example ex_kinds_ok : kinds_ok ex_cl.
Proof. intros k n [E|[E|[E|[E|[E|[]]]]]]; injection E as <- _; auto. Qed.
Lemma word_dec : forall s, (negb (String.eqb s "") && forallb key_char (text s)) = true -> word s.
Proof.
  intros s H. apply andb_true_iff in H as [A B]. split.
  - intros ->. discriminate A.
  - rewrite forallb_forall in B. apply Forall_forall. auto.
Qed.
Lemma blank0 : blanks [].
Proof. constructor. Qed.
Lemma blank1 : blanks [" "%char].
Proof. repeat constructor. Qed.
Lemma gap1 : gap [" "%char].
Proof. split; [discriminate|apply blank1]. Qed.
Definition e_web_or : sexpr :=
  EOr (EAtom (AEq "app" "db")) (EAnd (EAtom (AStarts "app" "we")) (ENot (EOr (EAtom (AHas "tier")) (EAtom (AIn "app" ["x"; "y"]))))).
Definition t_web_or : string := "app == 'db' || app starts with 'we' && !(has(tier) || app in {'x', 'y'})".
Example ex_denotes : denotes t_web_or e_web_or.
Proof.
  unfold denotes, e_web_or.
  change (text t_web_or) with (text "app == 'db' " ++ "|"%char :: "|"%char :: text " app starts with 'we' && !(has(tier) || app in {'x', 'y'})").
  apply g_or.
  - apply g_and1. change (text "app == 'db' ") with ([] ++ (text "app" ++ [" "%char] ++ text "==" ++ [" "%char] ++ quote "db") ++ [" "%char]).
    apply g_atom; [apply blank0|apply blank1|]. apply at_eq; try apply blank1; apply word_dec; reflexivity.
  - apply g_or1. change (text " app starts with 'we' && !(has(tier) || app in {'x', 'y'})")
      with (text " app starts with 'we' " ++ "&"%char :: "&"%char :: text " !(has(tier) || app in {'x', 'y'})").
    apply g_and.
    + change (text " app starts with 'we' ")
        with ([" "%char] ++ (text "app" ++ [" "%char] ++ text "starts" ++ [" "%char] ++ text "with" ++ [" "%char] ++ quote "we") ++ [" "%char]).
      apply g_atom; try apply blank1. apply at_starts; try apply gap1; try apply blank1; apply word_dec; reflexivity.
    + apply g_and1. change (text " !(has(tier) || app in {'x', 'y'})") with ([" "%char] ++ "!"%char :: text "(has(tier) || app in {'x', 'y'})").
      apply g_not; [apply blank1|].
      change (text "(has(tier) || app in {'x', 'y'})") with ([] ++ "("%char :: (text "has(tier) " ++ "|"%char :: "|"%char :: text " app in {'x', 'y'}") ++ ")"%char :: []).
      apply g_par; try apply blank0. apply g_or.
      * apply g_and1. change (text "has(tier) ") with ([] ++ (text "has(" ++ text "tier" ++ [")"%char]) ++ [" "%char]).
        apply g_atom; [apply blank0|apply blank1|]. apply at_has. apply word_dec. reflexivity.
      * apply g_or1, g_and1.
        change (text " app in {'x', 'y'}") with ([" "%char] ++ (text "app" ++ [" "%char] ++ text "in" ++ [" "%char] ++ "{"%char :: text "'x', 'y'" ++ ["}"%char]) ++ []).
        apply g_atom; [apply blank1|apply blank0|]. apply at_in; [apply word_dec; reflexivity|apply gap1|apply blank1|].
        change (text "'x', 'y'") with ([] ++ quote "x" ++ [] ++ ","%char :: ([" "%char] ++ quote "y" ++ [])).
        apply vt_more; try apply blank0; [apply word_dec; reflexivity|]. apply vt_one; [apply blank1|apply blank0|apply word_dec; reflexivity].
Qed.
(** pods b (app=db) and c (app=web, no tier) of the cluster of PropSelectors.v; pod a has a tier. *)
Example ex_selected : calico_selector ex_cl None false (YStr t_web_or) = Some [pb; pc].
Proof. vm_compute. reflexivity. Qed.
Example ex_namespaces :
  calico_selector ex_cl None true (YStr "has(env) || global()") = Some [pa; pb; hep] /\
  calico_selector ex_cl None true (YStr "!(env contains 'ro')") = Some [pc] /\
  calico_selector ex_cl None true (YStr "!global()") = Some [pa; pb; pc] /\
  calico_selector ex_cl None false (YStr "global()") = None /\ calico_selector ex_cl None false (YStr " ") = None.
Proof. repeat apply conj; vm_compute; reflexivity. Qed.

(** ** What is accepted although it is no selector *)
Definition bars (l : list ascii) : nat := List.length (filter (Ascii.eqb "|") l).
Lemma bars_app : forall a b, bars (a ++ b) = bars a + bars b.
Proof. intros a b. unfold bars. rewrite filter_app, app_length. reflexivity. Qed.
Lemma bars_none : forall l, ~ In "|"%char l -> bars l = 0.
Proof.
  induction l as [|c l IH]; intros N; auto. unfold bars in *. cbn [filter]. destruct (Ascii.eqb_spec "|" c) as [<-|_].
  - destruct N. left; auto.
  - apply IH. intros X. apply N. right; auto.
Qed.
Lemma bars_blanks : forall w, blanks w -> bars w = 0.
Proof. intros w H. apply bars_none. intros X. exact (blanks_not w "|" H X eq_refl). Qed.
Lemma gram_bars : forall l s e, gram l s e -> Nat.even (bars s) = true.
Proof.
  induction 1 as [s e _ IH|s e t f _ IH1 _ IH2|s e _ IH|s e t f _ IH1 _ IH2|w s e Hw H IH|w1 w2 s e H1 H2 H IH|w1 w2 s a0 H1 H2 Ha]; auto.
  - rewrite bars_app. change (bars ("|"%char :: "|"%char :: t)) with (S (S (bars t))).
    rewrite !Nat.add_succ_r. rewrite Nat.even_succ_succ, Nat.even_add, IH1, IH2. reflexivity.
  - rewrite bars_app. change (bars ("&"%char :: "&"%char :: t)) with (bars t). rewrite Nat.even_add, IH1, IH2. reflexivity.
  - rewrite bars_app, (bars_blanks w) by auto. exact IH.
  - rewrite bars_app, (bars_blanks w1) by auto. change (bars ("("%char :: s ++ ")"%char :: w2)) with (bars (s ++ ")"%char :: w2)).
    rewrite bars_app. change (bars (")"%char :: w2)) with (bars w2). rewrite (bars_blanks w2), Nat.add_0_r by auto. exact IH.
  - rewrite !bars_app, (bars_blanks w1), (bars_blanks w2) by auto. destruct (atom_inside _ _ Ha) as (_ & _ & N & _).
    rewrite (bars_none s) by auto. reflexivity.
Qed.
(** Text after a complete label expression is ignored (re.match does not ask for the end of the text): with one | instead of
    two, only the first operand counts, and no error is reported. *)
Theorem C50_only_selectors_accepted_refuted :
  ~ forall cl ns s r, cluster_ok cl -> calico_selector cl ns false (YStr s) = Some r -> exists e, denotes s e.
Proof.
  intros H. destruct (H ex_cl None "app == 'db' | app == 'web'" [pb] ex_cl_ok ltac:(vm_compute; reflexivity)) as (e & D).
  apply gram_bars in D. vm_compute in D. discriminate D.
Qed.
(** A list of values may be followed by further quoted words, which are then taken as values too (findall, line 84). *)
Example ex_in_garbage : calico_selector ex_cl None false (YStr "app in {'x'} 'web'") = Some [pa; pc].
Proof. vm_compute. reflexivity. Qed.

Print Assumptions C50_endpoint_selector.
Print Assumptions C50_namespace_selector.
Print Assumptions C50_reading_unique.
Print Assumptions C50_only_selectors_accepted_refuted.
