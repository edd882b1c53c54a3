(** * C42: the path of an Ingress rule that a request is routed by.

    Kubernetes routes a request by the rule's path that matches it best: an Exact path matches the path that is equal to it, a Prefix path
    those whose elements (between slashes) start with its elements; an Exact path comes before Prefix paths, and a Prefix path with more
    elements before one with fewer.  The code makes the paths' languages disjoint (segregate_longest_paths_and_make_dfa).  *)
From Coq Require Import ZArith List Bool Arith Lia String Ascii.
From Verif Require Import IntervalModel IntervalFacts HyperModel HyperFacts HyperInst PeerModel ConnAlg StdDims TextModel PortProtoModel YamlModel ClusterModel CalicoSelectorModel
                          IstioValueModel PropIstioValues IstioRuleFacts IngressModel IngressWords.
Import ListNotations.
Local Open Scope string_scope.
Local Open Scope list_scope.
Local Open Scope nat_scope.
Local Open Scope char_scope.

(** ** The specification *)
Definition covers (p : ipath) (w : word) : Prop :=
  if ip_exact p then w = ip_text p else exists r, elements w = elements (ip_text p) ++ r.
Definition beats (q p : ipath) : Prop :=
  ip_exact p = false /\ (ip_exact q = true \/ List.length (elements (ip_text p)) < List.length (elements (ip_text q))).
(** The path routes the requests for [w]. *)
Definition routes (ps : list ipath) (p : ipath) (w : word) : Prop := covers p w /\ forall q, In q ps -> covers q w -> ~ beats q p.

(** ** Conditions *)
(** No dots (see C42_dot_refuted); a slash first, unless the path is the Prefix '/', and no slash last in a Prefix (parse_ingress_path
    removes it). *)
Definition path_wf (p : ipath) : Prop :=
  plain_word (ip_text p) /\ (ip_exact p = true \/ ends_slash (ip_text p) = false) /\
  ((exists t, ip_text p = "/" :: t) \/ ip_exact p = false /\ ip_text p = []).
(** No two Prefix paths are the same (see C42_duplicates_refuted). *)
Definition distinct_prefixes (ps : list ipath) : Prop := forall i j p q, nth_error ps i = Some p -> nth_error ps j = Some q ->
  ip_exact p = false -> ip_exact q = false -> ip_text p = ip_text q -> i = j.
Section Paths.
Context (code : word -> Z) (dfa : list ascii -> val).
(** The automaton made from a text accepts the words of the domain that the regular expression matches. *)
Definition reads (d : dim) (t : list ascii) : Prop :=
  val_valid std_dom d (dfa t) /\ forall r w, domain_word d w -> read_rx t = Some r -> (val_mem (code w) (dfa t) <-> rx_matches r w).
Definition path_reads (p : ipath) : Prop := if ip_exact p then reads 7 (ip_text p) else ip_text p = [] \/ reads 7 (prefix_regex (ip_text p)).

Definition std_vals := val_laws std_dom (ok_doms _ _ _ _ _ _ ex_alg).
Lemma dom7_all : forall x, val_mem x (std_dom 7).
Proof. intros x H. exact (proj1 (mem_nil x) H). Qed.
Lemma dom7_valid : val_valid std_dom 7 (std_dom 7).
Proof. exact (L_dom _ _ _ std_vals 7). Qed.
Lemma path_dfa_spec : forall p, path_wf p -> path_reads p -> val_valid std_dom 7 (path_dfa std_dom dfa p) /\
  forall w, domain_word 7 w -> (val_mem (code w) (path_dfa std_dom dfa p) <-> covers p w).
Proof.
  intros p (Pl & Es & St) R. unfold path_dfa, path_reads, covers in *. destruct (ip_exact p) eqn:Ex.
  - destruct R as [V R]. split; auto. intros w Hw. destruct (exact_language _ Pl) as (r & Er & M). rewrite (R r w Hw Er). apply M.
  - destruct Es as [Es|Es]; [discriminate|]. unfold full_text. rewrite Ex. destruct (ip_text p) as [|c l] eqn:Et.
    + split; [exact dom7_valid|]. intros w [_ Hw]. destruct (Hw eq_refl) as (t & ->). split; [|intros _; apply dom7_all]. intros _. apply elements_prefix. right. exists t. reflexivity.
    + destruct R as [R|R]; [discriminate|]. destruct R as [V R].
      assert (E : prefix_dfa std_dom dfa (c :: l) = dfa (prefix_regex (c :: l))).
      { unfold prefix_dfa. destruct l; auto. destruct (Ascii.eqb_spec c "/") as [->|N]; auto. discriminate Es. }
      assert (Er : prefix_regex (c :: l) = (c :: l) ++ text "(/[.\w/\-]*)?") by (unfold prefix_regex, no_slash; rewrite Es; reflexivity).
      rewrite E. split; auto. intros w Hw. destruct (prefix_language _ Pl) as (r & Rr & M). rewrite <- Er in Rr. rewrite (R r w Hw Rr), M, elements_prefix.
      split; [intros [H|(t & H & _)]; eauto|]. intros [H|(t & ->)]; auto. right. exists t. split; auto. destruct Hw as [Hw _]. apply Forall_app in Hw as [_ Hw]. inversion Hw; auto.
Qed.
Lemma others_in : forall {X} (l : list X) i q, In q (others i l) <-> exists j, j <> i /\ nth_error l j = Some q.
Proof.
  intros X l i q. unfold others. rewrite in_app_iff. revert i. induction l as [|x l IH]; intros i.
  - rewrite firstn_nil, skipn_nil. cbn. split; [tauto|]. intros (j & _ & E). destruct j; discriminate.
  - destruct i as [|i]; cbn [firstn skipn].
    + split; [intros [[]|H]|]. { apply In_nth_error in H as (j & E). exists (S j). auto. } intros (j & N & E). destruct j as [|j]; [congruence|]. right. exact (nth_error_In l j E).
    + cbn [In]. change (match l with [] => [] | _ :: l0 => skipn i l0 end) with (skipn (S i) l). split.
      * intros [[->|H]|H]; [exists 0; auto| |]; (destruct (proj1 (IH i) ltac:(first [left; exact H|right; exact H])) as (j & N & E); exists (S j); auto).
      * intros (j & N & E). destruct j as [|j]; [injection E as ->; auto|]. destruct (proj2 (IH i) (ex_intro _ j (conj (fun e => N (f_equal S e)) E))); auto.
Qed.
Lemma segregate_one_mem : forall ps i p w, Forall path_wf ps -> Forall path_reads ps -> path_wf p -> path_reads p -> domain_word 7 w -> ip_exact p = false ->
  val_valid std_dom 7 (segregate_one std_dom dfa ps i p) /\
  (val_mem (code w) (segregate_one std_dom dfa ps i p) <->
   covers p w /\ forall q, In q (others i ps) -> starts_with (full_text p) (full_text q) = true -> ~ covers q w).
Proof.
  intros ps i p w F R Pp Rp Hw Ex. unfold segregate_one. rewrite Ex.
  assert (G : forall l v P, Forall path_wf l -> Forall path_reads l -> val_valid std_dom 7 v -> (val_mem (code w) v <-> P) ->
    val_valid std_dom 7 (fold_left (fun v q => if starts_with (full_text p) (full_text q) then vsub (val_ops std_dom) v (path_dfa std_dom dfa q) else v) l v) /\
    (val_mem (code w) (fold_left (fun v q => if starts_with (full_text p) (full_text q) then vsub (val_ops std_dom) v (path_dfa std_dom dfa q) else v) l v) <->
     P /\ forall q, In q l -> starts_with (full_text p) (full_text q) = true -> ~ covers q w)).
  { induction l as [|q l IH]; intros v P Fl Rl Vv Mv; cbn [fold_left]; [split; auto; split; [intros H; split; [tauto|intros q []]|tauto]|].
    inversion Fl; inversion Rl; subst. destruct (path_dfa_spec q ltac:(auto) ltac:(auto)) as [Vq Mq]. specialize (Mq w Hw).
    destruct (starts_with (full_text p) (full_text q)) eqn:S.
    - destruct (IH (vsub (val_ops std_dom) v (path_dfa std_dom dfa q)) (P /\ ~ covers q w)) as [V M]; auto.
      + apply (L_sub_valid _ _ _ std_vals 7); auto.
      + rewrite (L_sub _ _ _ std_vals 7 _ _ (code w) Vv Vq). tauto.
      + split; [exact V|]. rewrite M. split; [intros [[HP HN] HQ]; split; auto; intros q' [<-|Hq']; auto|]. intros [HP HQ]. split; [split; auto; apply HQ; auto; left; auto|]. intros q' Hq'. apply HQ. right. auto.
    - destruct (IH v P) as [V M]; auto. split; [exact V|]. rewrite M. split; intros [HP HQ]; split; auto; [intros q' [<-|Hq']; [congruence|auto]|intros q' Hq'; apply HQ; right; auto]. }
  destruct (path_dfa_spec p Pp Rp) as [Vp Mp]. apply G; auto; rewrite Forall_forall in *; intros q Hq; apply others_in in Hq as (j & _ & E); apply nth_error_In in E; auto.
Qed.
Lemma starts_app : forall a b, starts_with a b = true <-> exists t, b = a ++ t.
Proof.
  induction a as [|x a IH]; intros b; cbn [starts_with app]; [split; eauto|]. destruct b as [|y b]; [split; [discriminate|intros (t & E); discriminate]|].
  rewrite andb_true_iff, Ascii.eqb_eq, IH. split; [intros [-> (t & ->)]; eauto|intros (t & E); injection E as -> ->; eauto].
Qed.
(** Elements that start with the elements of [p] start with the text of [p]. *)
Lemma covered_starts : forall p w, covers p w -> domain_word 7 w -> starts_with (full_text p) w = true.
Proof.
  intros p w C [_ Hw]. destruct (Hw eq_refl) as (t & Ew). apply starts_app. unfold covers, full_text in *. destruct (ip_exact p); [exists []; rewrite app_nil_r; auto|].
  apply elements_prefix in C. destruct (ip_text p) as [|c l]; [subst; exists t; reflexivity|]. destruct C as [->|(s & ->)]; [exists []; rewrite app_nil_r; auto|exists ("/" :: s); auto].
Qed.
Lemma prefix_of_common : forall {X} (a b w : list X) r s, w = a ++ r -> w = b ++ s -> List.length a <= List.length b -> exists t, b = a ++ t.
Proof.
  intros X a. induction a as [|x a IH]; intros b w r s E1 E2 L; [exists b; reflexivity|]. destruct b as [|y b]; [inversion L|]. rewrite E1 in E2. cbn [app] in E2. inversion E2 as [[Exy E3]]. subst y.
  destruct (IH b (a ++ r) r s eq_refl E3) as (t & ->); [cbn [List.length] in L; lia|]. exists t. reflexivity.
Qed.

(** C42: after the segregation, the language of a path has exactly the words that Kubernetes routes by it. *)
Theorem C42_most_specific_path : forall ps i p w, Forall path_wf ps -> Forall path_reads ps -> distinct_prefixes ps -> nth_error ps i = Some p -> domain_word 7 w ->
  (val_mem (code w) (segregate_one std_dom dfa ps i p) <-> routes ps p w).
Proof.
  intros ps i p w F R D Ei Hw. pose proof (nth_error_In _ _ Ei) as Ip. pose proof (proj1 (Forall_forall _ _) F p Ip) as Pp. pose proof (proj1 (Forall_forall _ _) R p Ip) as Rp.
  destruct (ip_exact p) eqn:Ex.
  - unfold segregate_one. rewrite Ex. rewrite (proj2 (path_dfa_spec p Pp Rp) w Hw). unfold routes. split; [intros H; split; auto; intros q _ _ [B _]; congruence|tauto].
  - destruct (segregate_one_mem ps i p w F R Pp Rp Hw Ex) as [_ M]. rewrite M. clear M. unfold routes. split; intros [Hc N]; split; auto.
    + intros q Iq Cq [_ B]. apply In_nth_error in Iq as (j & Ej).
      assert (NE : j <> i). { intros ->. rewrite Ei in Ej. injection Ej as <-. destruct B as [B|B]; [congruence|exact (Nat.lt_irrefl _ B)]. }
      apply (N q); auto; [apply others_in; eauto|]. destruct (ip_exact q) eqn:Eq.
      * pose proof (covered_starts p w Hc Hw) as S. unfold covers in Cq. rewrite Eq in Cq. unfold full_text at 2. rewrite Eq, <- Cq. exact S.
      * destruct B as [B|B]; [congruence|]. unfold covers in Hc, Cq. rewrite Ex in Hc. rewrite Eq in Cq. destruct Hc as (r & E1), Cq as (s & E2).
        destruct (prefix_of_common _ _ _ _ _ E1 E2 (Nat.lt_le_incl _ _ B)) as (t & Et). assert (P : exists r, elements (ip_text q) = elements (ip_text p) ++ r) by eauto.
        apply elements_prefix in P. pose proof (proj1 (Forall_forall _ _) F q (nth_error_In _ _ Ej)) as (_ & _ & Sq). apply starts_app. unfold full_text. rewrite Ex, Eq.
        destruct (ip_text p) as [|c l]. { destruct Sq as [(u & ->)|[_ Sq]]; [exists u; reflexivity|]. rewrite Sq. exists []. reflexivity. }
        destruct P as [->|(u & ->)]; [exists []; rewrite app_nil_r; auto|exists ("/" :: u); reflexivity].
    + intros q Iq S Cq. apply others_in in Iq as (j & NE & Ej). apply (N q (nth_error_In _ _ Ej) Cq). split; auto. destruct (ip_exact q) eqn:Eq; auto. right.
      destruct (lt_dec (List.length (elements (ip_text p))) (List.length (elements (ip_text q)))) as [L|L]; auto. exfalso. apply NE, (D j i q p Ej Ei Eq Ex).
      unfold covers in Hc, Cq. rewrite Ex in Hc. rewrite Eq in Cq. destruct Hc as (r & E1), Cq as (s & E2).
      destruct (prefix_of_common _ _ _ _ _ E2 E1 (proj1 (Nat.nlt_ge _ _) L)) as (t & Et). assert (P : exists r, elements (ip_text p) = elements (ip_text q) ++ r) by eauto. apply elements_prefix in P.
      destruct P as [P|(u & P)]; auto. exfalso. apply starts_app in S as (v & S). unfold full_text in S. rewrite Ex, Eq, P in S. destruct (ip_text q) as [|c l].
      * injection S as S. destruct u; [|discriminate]. destruct Pp as (_ & [Pp|Pp] & _); [congruence|]. rewrite P in Pp. discriminate Pp.
      * assert (Le : List.length (c :: l) = List.length ((((c :: l) ++ "/" :: u)) ++ v)) by (rewrite S at 1; reflexivity). rewrite !app_length in Le. cbn in Le. lia.
Qed.
End Paths.

(** ** Every matched word has a route *)
Lemma covers_dec : forall p w, covers p w \/ ~ covers p w.
Proof.
  intros p w. unfold covers. destruct (ip_exact p).
  - destruct (list_eq_dec ascii_dec w (ip_text p)); auto.
  - destruct (list_eq_dec ascii_dec w (ip_text p)) as [E|E]; [left; apply elements_prefix; auto|].
    destruct (starts_with (ip_text p ++ ["/"]) w) eqn:S.
    + left. apply starts_app in S as (t & ->). apply elements_prefix. right. exists t. rewrite <- app_assoc. reflexivity.
    + right. intros H. apply elements_prefix in H as [H|(t & ->)]; [auto|].
      assert (X : starts_with (ip_text p ++ ["/"]) (ip_text p ++ "/" :: t) = true) by (apply starts_app; exists t; rewrite <- app_assoc; reflexivity). congruence.
Qed.
Definition rank_in (w : word) (p : ipath) : nat := if ip_exact p then S (List.length (elements w)) else List.length (elements (ip_text p)).
Lemma beats_rank : forall p q w, covers p w -> covers q w -> (beats q p <-> rank_in w p < rank_in w q).
Proof.
  intros p q w Hp Hq. unfold beats, rank_in, covers in *. destruct (ip_exact p) eqn:Ep, (ip_exact q) eqn:Eq.
  - split; [intros [H _]; discriminate|intros H; destruct (Nat.lt_irrefl _ H)].
  - destruct Hq as (r & ->). rewrite app_length. split; [intros [H _]; discriminate|intros H; exfalso; lia].
  - destruct Hp as (r & ->). rewrite app_length. split; [intros _; lia|auto].
  - split; [intros [_ [H|H]]; [discriminate|exact H]|auto].
Qed.
Lemma route_exists : forall ps w, (exists p, In p ps /\ covers p w) -> exists p, In p ps /\ routes ps p w.
Proof.
  intros ps w H.
  assert (G : forall l, (forall p, In p l -> ~ covers p w) \/ exists p, In p l /\ covers p w /\ forall q, In q l -> covers q w -> rank_in w q <= rank_in w p).
  { induction l as [|p l IH]; [left; intros p []|]. destruct (covers_dec p w) as [C|C].
    - right. destruct IH as [N|(q & Iq & Cq & M)].
      + exists p. split; [left; auto|]. split; auto. intros q [<-|Hq] Cq; [auto|destruct (N q Hq Cq)].
      + destruct (le_lt_dec (rank_in w p) (rank_in w q)) as [L|L].
        * exists q. split; [right; auto|]. split; auto. intros q' [<-|Hq'] Cq'; auto.
        * exists p. split; [left; auto|]. split; auto. intros q' [<-|Hq'] Cq'; auto. specialize (M q' Hq' Cq'). lia.
    - destruct IH as [N|(q & Iq & Cq & M)]; [left; intros q [<-|Hq]; auto|]. right. exists q. split; [right; auto|]. split; auto. intros q' [<-|Hq'] Cq'; [destruct (C Cq')|auto]. }
  destruct (G ps) as [N|(p & Ip & Cp & M)]; [destruct H as (p & Ip & Cp); destruct (N p Ip Cp)|]. exists p. split; auto. split; auto. intros q Iq Cq B.
  apply (beats_rank p q w Cp Cq) in B. specialize (M q Iq Cq). lia.
Qed.
(** Two routes of a word are the same path. *)
Lemma route_unique : forall ps p q w, In p ps -> In q ps -> routes ps p w -> routes ps q w -> ip_exact p = ip_exact q /\ ip_text p = ip_text q.
Proof.
  intros ps p q w Ip Iq [Cp Np] [Cq Nq]. specialize (Np q Iq Cq). specialize (Nq p Ip Cp). unfold beats in *.
  destruct (ip_exact p) eqn:Ep, (ip_exact q) eqn:Eq; try (exfalso; tauto); unfold covers in *; rewrite Ep in Cp; rewrite Eq in Cq.
  - split; congruence.
  - split; auto. destruct Cp as (r & E1), Cq as (s & E2).
    assert (L : List.length (elements (ip_text p)) = List.length (elements (ip_text q))).
    { destruct (lt_eq_lt_dec (List.length (elements (ip_text p))) (List.length (elements (ip_text q)))) as [[L|L]|L]; auto; exfalso; tauto. }
    rewrite E1 in E2. apply elements_inj. clear - E2 L. revert L E2. generalize (elements (ip_text p)) (elements (ip_text q)). intros a. induction a as [|x a IH]; intros [|y b] L E; try discriminate; auto.
    cbn [app] in E. injection E as -> E. f_equal. apply IH; auto.
Qed.

(** ** Words of a route, and words of none *)
Definition letters (n : nat) : word := repeat "a" n.
Lemma letters_alphabet : forall n, over_alphabet (letters n).
Proof. induction n; constructor; auto. Qed.
Lemma letters_elements : forall n, elements (letters n) = [letters n].
Proof. induction n as [|n IH]; [reflexivity|]. cbn [letters repeat elements]. fold (letters n). rewrite IH. reflexivity. Qed.
Lemma plain_alphabet : forall w, plain_word w -> over_alphabet w.
Proof. intros w H. apply Forall_impl with (2 := H). intros c [A _]. exact A. Qed.
Definition total (ps : list ipath) : nat := fold_right (fun p n => S (List.length (ip_text p)) + n) 0 ps.
Lemma total_in : forall ps p, In p ps -> List.length (ip_text p) < total ps.
Proof. induction ps as [|q ps IH]; intros p H; [destruct H|]. cbn [total fold_right]. destruct H as [<-|H]; [lia|]. specialize (IH p H). unfold total in IH. lia. Qed.
Lemma route_word : forall ps p, Forall path_wf ps -> In p ps -> exists w, domain_word 7 w /\ routes ps p w.
Proof.
  intros ps p F Ip. pose proof (proj1 (Forall_forall _ _) F p Ip) as (Pl & Es & St). destruct (ip_exact p) eqn:Ex.
  - exists (ip_text p). split; [split; [apply plain_alphabet; auto|intros _; destruct St as [St|[St _]]; [exact St|discriminate]]|]. split; [unfold covers; rewrite Ex; auto|]. intros q _ _ [B _]. congruence.
  - exists (ip_text p ++ "/" :: letters (total ps)).
    assert (Ew : elements (ip_text p ++ "/" :: letters (total ps)) = elements (ip_text p) ++ [letters (total ps)]) by (rewrite elements_app, letters_elements; reflexivity).
    split; [|split].
    + split; [apply Forall_app; split; [apply plain_alphabet; auto|constructor; [reflexivity|apply letters_alphabet]]|].
      intros _. destruct St as [(t & ->)|[_ ->]]; [exists (t ++ "/" :: letters (total ps)); reflexivity|exists (letters (total ps)); reflexivity].
    + unfold covers. rewrite Ex. eauto.
    + intros q Iq Cq [_ B]. pose proof (total_in ps q Iq) as T.
      assert (Eq : ip_text q = ip_text p ++ "/" :: letters (total ps)).
      { unfold covers in Cq. destruct (ip_exact q) eqn:Eq; [auto|]. destruct B as [B|B]; [congruence|]. destruct Cq as (r & Cq). rewrite Ew in Cq. apply elements_inj. rewrite Ew.
        destruct r as [|x r]; [rewrite app_nil_r in Cq; auto|]. exfalso. apply (f_equal (@List.length _)) in Cq. rewrite !app_length in Cq. cbn [List.length] in Cq. lia. }
      rewrite Eq, app_length in T. cbn [List.length] in T. unfold letters in T. rewrite repeat_length in T. lia.
Qed.
Lemma free_word : forall ps, Forall path_wf ps -> (forall p, In p ps -> ip_exact p = false -> ip_text p <> []) -> exists w, domain_word 7 w /\ forall p, In p ps -> ~ covers p w.
Proof.
  intros ps F NR. exists ("/" :: letters (total ps)). split; [split; [constructor; [reflexivity|apply letters_alphabet]|intros _; eexists; reflexivity]|]. intros p Ip C.
  pose proof (total_in ps p Ip) as T. pose proof (proj1 (Forall_forall _ _) F p Ip) as (_ & _ & St). unfold covers in C. destruct (ip_exact p) eqn:Ex.
  - rewrite <- C in T. cbn [List.length] in T. unfold letters in T. rewrite repeat_length in T. lia.
  - destruct St as [(t & Et)|[_ Et]]; [|destruct (NR p Ip Ex Et)]. rewrite Et in *. destruct C as (r & C). cbn [elements] in C. change (Ascii.eqb "/" "/") with true in C. cbv iota in C. rewrite letters_elements in C.
    cbn [app] in C. injection C as C. destruct (elements t) as [|x [|y l]] eqn:El; [destruct (elements_ne t El)| |discriminate].
    injection C as C _. assert (Q : t = x) by (rewrite <- (join_elements t), El; reflexivity). rewrite Q, <- C in T. cbn [List.length] in T. unfold letters in T. rewrite repeat_length in T. lia.
Qed.

(** C42: a request that some path matches has exactly one route, so the languages are disjoint and cover what the paths match. *)
Theorem C42_exactly_one_path : forall code dfa ps w, Forall path_wf ps -> Forall (path_reads code dfa) ps ->
  (forall i j p q, nth_error ps i = Some p -> nth_error ps j = Some q -> ip_exact p = ip_exact q -> ip_text p = ip_text q -> i = j) -> domain_word 7 w ->
  ((exists p, In p ps /\ covers p w) <-> exists! i, exists p, nth_error ps i = Some p /\ val_mem (code w) (segregate_one std_dom dfa ps i p)).
Proof.
  intros code dfa ps w F R D Hw.
  assert (DP : distinct_prefixes ps) by (intros i j p q Hi Hj E1 E2 E; apply (D i j p q Hi Hj); congruence).
  split.
  - intros H. destruct (route_exists ps w H) as (p & Ip & Rp). apply In_nth_error in Ip as Ei. destruct Ei as (i & Ei). exists i. split.
    + exists p. split; auto. apply (C42_most_specific_path code dfa ps i p w F R DP Ei Hw). exact Rp.
    + intros j (q & Ej & Mq). apply (C42_most_specific_path code dfa ps j q w F R DP Ej Hw) in Mq. destruct (route_unique ps p q w Ip (nth_error_In _ _ Ej) Rp Mq) as [E1 E2]. apply (D i j p q Ei Ej E1 E2).
  - intros (i & (p & Ei & M) & _). exists p. split; [apply (nth_error_In _ _ Ei)|]. apply (C42_most_specific_path code dfa ps i p w F R DP Ei Hw) in M. apply M.
Qed.

(** ** Examples *)
Local Notation tx s := (text s%string) (only parsing).
Definition prefix_path (s : string) : ipath := IPath (text s) false None None.
Definition exact_path (s : string) : ipath := IPath (text s) true None None.
Definition ex_paths : list ipath := [prefix_path ""; prefix_path "/foo"; exact_path "/foo"; prefix_path "/foo/bar"].
Definition below (p : string) (w : word) : bool := if list_eq_dec ascii_dec w (text p) then true else starts_with (text (p ++ "/")) w.
Definition ex_code (w : word) : Z :=
  match w with [] => 0 | _ => if list_eq_dec ascii_dec w (tx "/foo") then 1 else if below "/foo/bar" w then 2 else if below "/foo" w then 3 else 4 end%Z.
Definition ex_dfa (t : list ascii) : val :=
  if list_eq_dec ascii_dec t (tx "/foo") then VN false [Ivl 1 1]%Z
  else if list_eq_dec ascii_dec t (prefix_regex (tx "/foo/bar")) then VN false [Ivl 2 2]%Z
  else if list_eq_dec ascii_dec t (prefix_regex (tx "/foo")) then VN false [Ivl 1 3]%Z else VN false [].
Lemma text_plain : forall s, forallb (fun c => alphabet c && negb (Ascii.eqb c ".")) (text s) = true -> plain_word (text s).
Proof.
  intros s H. apply Forall_forall. intros c Hc. apply (proj1 (forallb_forall _ _) H) in Hc. apply andb_true_iff in Hc as [H1 H2]. split; auto. intros ->. discriminate.
Qed.
Lemma below_spec : forall p w, below p w = true <-> w = text p \/ exists t, w = text p ++ "/" :: t.
Proof.
  intros p w. unfold below. assert (E : text (p ++ "/") = text p ++ ["/"]) by (clear; unfold text; induction p; cbn; [|rewrite IHp]; reflexivity).
  destruct (list_eq_dec ascii_dec w (text p)) as [Q|Q]; [tauto|]. rewrite starts_app, E. split.
  - intros (t & ->). right. exists t. rewrite <- app_assoc. reflexivity.
  - intros [H|(t & ->)]; [congruence|]. exists t. rewrite <- app_assoc. reflexivity.
Qed.
Lemma small_valid : forall a b, (a <= b)%Z -> val_valid std_dom 7 (VN false [Ivl a b]).
Proof. intros a b H. unfold val_valid. change (std_dom 7) with (VN true []). cbn. split; [lia|]. split; [exact I|]. intros z _. rewrite mem_nil. tauto. Qed.
Lemma prefix_reads : forall s code dfa a b, forallb (fun c => alphabet c && negb (Ascii.eqb c ".")) (text s) = true -> ends_slash (text s) = false -> (a <= b)%Z ->
  dfa (prefix_regex (text s)) = VN false [Ivl a b] -> (forall w, domain_word 7 w -> ((a <= code w <= b)%Z <-> below s w = true)) -> reads code dfa 7 (prefix_regex (text s)).
Proof.
  intros s code dfa a b P Es H E M. split; [rewrite E; apply small_valid; auto|]. intros r w Hw Er. rewrite E. cbn [val_mem]. rewrite mem_cons, mem_nil. cbn [lo hi].
  destruct (prefix_language _ (text_plain s P)) as (r' & Er' & L). unfold prefix_regex, no_slash in Er. rewrite Es in Er. rewrite Er in Er'. injection Er' as <-. rewrite L, or_comm. transitivity (a <= code w <= b)%Z; [clear; tauto|].
  rewrite (M w Hw), below_spec. split; [|intros [Q|(t & Q & _)]; eauto]. intros [Q|(t & Q)]; auto. right. exists t. split; auto. subst w. destruct Hw as [Hw _]. apply Forall_app in Hw as [_ Hw]. inversion Hw; auto.
Qed.
Example ex_paths_wf : Forall path_wf ex_paths.
Proof.
  apply Forall_cons; [|apply Forall_cons; [|apply Forall_cons; [|apply Forall_cons; [|apply Forall_nil]]]]; (split; [apply text_plain; reflexivity|]).
  - split; [right; reflexivity|right; split; reflexivity].
  - split; [right; reflexivity|left; eexists; reflexivity].
  - split; [left; reflexivity|left; eexists; reflexivity].
  - split; [right; reflexivity|left; eexists; reflexivity].
Qed.
Example ex_paths_read : Forall (path_reads ex_code ex_dfa) ex_paths.
Proof.
  apply Forall_cons; [|apply Forall_cons; [|apply Forall_cons; [split|apply Forall_cons; [|apply Forall_nil]]]].
  - left. reflexivity.
  - right. apply (prefix_reads "/foo" ex_code ex_dfa 1 3); try reflexivity; try lia. intros w [_ Hw]. destruct (Hw eq_refl) as (t & ->). unfold ex_code.
    destruct (list_eq_dec ascii_dec ("/" :: t) (tx "/foo")) as [Q|Q]; [rewrite Q; split; [reflexivity|lia]|].
    destruct (below "/foo/bar" ("/" :: t)) eqn:B.
    + split; [intros _|lia]. apply below_spec in B. apply below_spec. right. destruct B as [->|(u & ->)]; eexists; reflexivity.
    + destruct (below "/foo" ("/" :: t)); split; try lia; discriminate.
  - apply small_valid; lia.
  - intros r w [_ Hw] Er. destruct (exact_language (tx "/foo") (text_plain "/foo" eq_refl)) as (r' & Er' & L). change (ip_text (exact_path "/foo")) with (tx "/foo") in *. rewrite Er in Er'. injection Er' as <-. rewrite L. destruct (Hw eq_refl) as (t & ->).
    change (ex_dfa (tx "/foo")) with (VN false [Ivl 1 1]%Z). cbn [val_mem]. rewrite mem_cons, mem_nil. cbn [lo hi]. unfold ex_code.
    destruct (list_eq_dec ascii_dec ("/" :: t) (tx "/foo")) as [Q|Q]; [split; [auto|lia]|]. destruct (below "/foo/bar" ("/" :: t)), (below "/foo" ("/" :: t)); split; try lia; intros X; destruct (Q X).
  - right. apply (prefix_reads "/foo/bar" ex_code ex_dfa 2 2); try reflexivity; try lia. intros w [_ Hw]. destruct (Hw eq_refl) as (t & ->). unfold ex_code.
    destruct (list_eq_dec ascii_dec ("/" :: t) (tx "/foo")) as [Q|Q].
    + rewrite Q. split; [lia|]. intros X. vm_compute in X. discriminate.
    + destruct (below "/foo/bar" ("/" :: t)), (below "/foo" ("/" :: t)); split; try lia; discriminate.
Qed.
Example ex_paths_distinct : forall i j p q, nth_error ex_paths i = Some p -> nth_error ex_paths j = Some q -> ip_exact p = ip_exact q -> ip_text p = ip_text q -> i = j.
Proof.
  assert (N : NoDup (map (fun p => (ip_exact p, ip_text p)) ex_paths)).
  { repeat constructor; cbn [map ex_paths In prefix_path exact_path ip_exact ip_text]; intros H; repeat (destruct H as [H|H]; [discriminate H|]); exact H. }
  intros i j p q Hi Hj E1 E2. apply (proj1 (NoDup_nth_error _) N).
  - rewrite map_length. apply nth_error_Some. congruence.
  - rewrite !nth_error_map, Hi, Hj. cbn [option_map]. rewrite E1, E2. reflexivity.
Qed.
(** The Kubernetes documentation's kind of example: "/foo" goes to the Exact path, "/foo/x" and "/foo/" to the Prefix "/foo", "/foo/bar/x" to "/foo/bar",
    "/foobar" to "/". *)
Example ex_routes : routes ex_paths (exact_path "/foo") (tx "/foo") /\ routes ex_paths (prefix_path "/foo") (tx "/foo/x") /\ routes ex_paths (prefix_path "/foo") (tx "/foo/") /\
  routes ex_paths (prefix_path "/foo/bar") (tx "/foo/bar/x") /\ routes ex_paths (prefix_path "") (tx "/foobar").
Proof.
  assert (D : distinct_prefixes ex_paths) by (intros i j p q Hi Hj E1 E2 E; apply (ex_paths_distinct i j p q Hi Hj); congruence).
  assert (G : forall i p s, nth_error ex_paths i = Some p -> domain_word 7 (text s) -> val_mem (ex_code (text s)) (segregate_one std_dom ex_dfa ex_paths i p) -> routes ex_paths p (text s)).
  { intros i p s Hi Hw M. exact (proj1 (C42_most_specific_path ex_code ex_dfa ex_paths i p (text s) ex_paths_wf ex_paths_read D Hi Hw) M). }
  assert (W : forall s, forallb alphabet (text ("/" ++ s)) = true -> domain_word 7 (text ("/" ++ s))).
  { intros s H. split; [apply Forall_forall; intros c Hc; exact (proj1 (forallb_forall _ _) H c Hc)|]. intros _. exists (text s). reflexivity. }
  assert (M : forall x v, v = VN false [Ivl x x] -> val_mem x v) by (intros x v ->; cbn [val_mem]; rewrite mem_cons; cbn [lo hi]; lia).
  split; [|split; [|split; [|split]]].
  - apply (G 2); [reflexivity|apply (W "foo"%string); reflexivity|]. apply M. vm_compute. reflexivity.
  - apply (G 1); [reflexivity|apply (W "foo/x"%string); reflexivity|]. apply M. vm_compute. reflexivity.
  - apply (G 1); [reflexivity|apply (W "foo/"%string); reflexivity|]. apply M. vm_compute. reflexivity.
  - apply (G 3); [reflexivity|apply (W "foo/bar/x"%string); reflexivity|]. apply M. vm_compute. reflexivity.
  - apply (G 0); [reflexivity|apply (W "foobar"%string); reflexivity|]. vm_compute. intros (x & [<-|[]] & _ & H). apply H. reflexivity.
Qed.

(** ** What the conditions exclude *)
(** Two Prefix paths that are the same (or that differ in a slash at the end only, or one of which is ImplementationSpecific) eliminate each
    other: no request is routed by either. *)
Theorem C42_duplicates_refuted : forall code dfa, reads code dfa 7 (prefix_regex (tx "/foo")) ->
  let ps := [prefix_path "/foo"; prefix_path "/foo"] in
  Forall path_wf ps /\ Forall (path_reads code dfa) ps /\ routes ps (prefix_path "/foo") (tx "/foo") /\
  forall i p w, domain_word 7 w -> nth_error ps i = Some p -> ~ val_mem (code w) (segregate_one std_dom dfa ps i p).
Proof.
  intros code dfa Rd ps.
  assert (W : path_wf (prefix_path "/foo")) by exact (proj1 (Forall_forall _ _) ex_paths_wf (prefix_path "/foo") (or_intror (or_introl eq_refl))).
  assert (F1 : Forall path_wf ps) by (constructor; [exact W|constructor; [exact W|constructor]]).
  assert (Rp : path_reads code dfa (prefix_path "/foo")) by (right; exact Rd).
  assert (F2 : Forall (path_reads code dfa) ps) by (constructor; [exact Rp|constructor; [exact Rp|constructor]]).
  split; [exact F1|]. split; [exact F2|]. split.
  - split; [exists []; rewrite app_nil_r; reflexivity|]. intros q Iq _ [_ B]. destruct Iq as [<-|[<-|[]]]; destruct B as [B|B]; [discriminate|lia|discriminate|lia].
  - intros i p w Hw Ei M. assert (Ep : p = prefix_path "/foo") by (apply nth_error_In in Ei as [<-|[<-|[]]]; reflexivity). subst p.
    apply (segregate_one_mem code dfa ps i (prefix_path "/foo") w F1 F2 W Rp Hw eq_refl) in M as [C N]. apply (N (prefix_path "/foo")); auto.
    apply others_in. destruct i as [|i]; [exists 1; split; [discriminate|reflexivity]|exists 0; split; [discriminate|reflexivity]].
Qed.
(** A dot in a path is a dot of the regular expression: the Exact path "/a.b" also gets the requests for "/axb". *)
Theorem C42_dot_refuted : forall code dfa, reads code dfa 7 (tx "/a.b") ->
  val_mem (code (tx "/axb")) (segregate_one std_dom dfa [exact_path "/a.b"] 0 (exact_path "/a.b")) /\ ~ covers (exact_path "/a.b") (tx "/axb").
Proof.
  intros code dfa [_ Rd]. split; [|discriminate]. unfold segregate_one, path_dfa. cbn [exact_path ip_exact ip_text].
  assert (Hw : domain_word 7 (tx "/axb")) by (split; [repeat constructor|intros _; eexists; reflexivity]).
  assert (E : exists r, read_rx (tx "/a.b") = Some r /\ rx_matches r (tx "/axb")).
  { eexists. split; [reflexivity|]. cbn [rx_matches].
    assert (Q : forall c, exists d, [c] = [d] /\ in_class [IChar c] d) by (intros c; exists c; split; auto; exists (IChar c); split; [left|]; reflexivity).
    exists ["/"], ["a"; "x"; "b"]. split; [reflexivity|]. split; [apply Q|]. exists ["a"], ["x"; "b"]. split; [reflexivity|]. split; [apply Q|].
    exists ["x"], ["b"]. split; [reflexivity|]. split; [exists "x"; reflexivity|]. exists ["b"], []. split; [reflexivity|]. split; [apply Q|reflexivity]. }
  destruct E as (r & Er & M). exact (proj2 (Rd r (tx "/axb") Hw Er) M).
Qed.
(** Both hypotheses can be met. *)
Example ex_reads_foo : reads ex_code ex_dfa 7 (prefix_regex (tx "/foo")).
Proof.
  pose proof (proj1 (Forall_forall _ _) ex_paths_read (prefix_path "/foo") (or_intror (or_introl eq_refl))) as [H|H]; [discriminate|exact H].
Qed.
Definition dot_code (w : word) : Z :=
  match w with [] => 0 | [a; b; c; d] => if Ascii.eqb a "/" && Ascii.eqb b "a" && Ascii.eqb d "b" then 1 else 2 | _ => 2 end%Z.
Example ex_reads_dot : reads dot_code (fun _ => VN false [Ivl 1 1]%Z) 7 (tx "/a.b").
Proof.
  split; [apply small_valid; lia|]. intros r w _ Er. cbn [val_mem]. rewrite mem_cons, mem_nil. cbn [lo hi].
  assert (M : rx_matches r w <-> exists c, w = ["/"; "a"; c; "b"]).
  { assert (Q : forall c x, (exists d, x = [d] /\ in_class [IChar c] d) <-> x = [c]).
    { intros c x. split; [intros (d & -> & (i & [<-|[]] & Hd)); cbn in Hd; congruence|]. intros ->. exists c. split; auto. exists (IChar c). split; [left|]; reflexivity. }
    injection Er as <-. cbn [rx_matches]. split.
    - intros (u1 & v1 & -> & H1 & u2 & v2 & -> & H2 & u3 & v3 & -> & (c & ->) & u4 & v4 & -> & H4 & ->). apply Q in H1 as ->. apply Q in H2 as ->. apply Q in H4 as ->. exists c. reflexivity.
    - intros (c & ->). exists ["/"], ["a"; c; "b"]. split; [reflexivity|]. split; [apply Q; reflexivity|]. exists ["a"], [c; "b"]. split; [reflexivity|]. split; [apply Q; reflexivity|].
      exists [c], ["b"]. split; [reflexivity|]. split; [exists c; reflexivity|]. exists ["b"], []. split; [reflexivity|]. split; [apply Q; reflexivity|reflexivity]. }
  rewrite M. unfold dot_code. destruct w as [|a [|b [|c [|d [|e w]]]]]; try (split; [lia|intros (c' & E); discriminate]).
  destruct (Ascii.eqb_spec a "/") as [->|Na]; [|cbn [andb]; split; [lia|intros (c' & E); congruence]].
  destruct (Ascii.eqb_spec b "a") as [->|Nb]; [|cbn [andb]; split; [lia|intros (c' & E); congruence]].
  destruct (Ascii.eqb_spec d "b") as [->|Nd]; [|cbn [andb]; split; [lia|intros (c' & E); congruence]].
  cbn [andb]. split; [intros _; exists c; reflexivity|lia].
Qed.
Print Assumptions C42_most_specific_path.
Print Assumptions C42_exactly_one_path.
Print Assumptions C42_duplicates_refuted.
Print Assumptions C42_dot_refuted.
