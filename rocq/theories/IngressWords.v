(** * The words that the regular expressions of the Ingress parser match, and the elements of a path. *)
From Coq Require Import ZArith List Bool Arith Lia String Ascii.
From Verif Require Import TextModel PortProtoModel YamlModel ClusterModel CalicoSelectorModel IstioValueModel PropIstioValues IngressModel.
Import ListNotations.
Local Open Scope string_scope.
Local Open Scope list_scope.
Local Open Scope nat_scope.
Local Open Scope char_scope.

(** ** Reading texts *)
(** A character of the alphabet other than a dot stands for itself. *)
Definition plain_char (c : ascii) : Prop := alphabet c = true /\ c <> ".".
Definition plain_word (w : word) : Prop := Forall plain_char w.
Ltac all_ascii := repeat match goal with b : bool |- _ => destruct b end; vm_compute in *; try reflexivity; try discriminate; try congruence.
Lemma plain_atom : forall c, plain_char c -> Ascii.eqb c ")" = false /\ Ascii.eqb c "(" = false /\ Ascii.eqb c "." = false /\
  Ascii.eqb c "[" = false /\ special c = false /\ Ascii.eqb c "*" = false /\ Ascii.eqb c "+" = false /\ Ascii.eqb c "?" = false.
Proof.
  intros c [H N]. assert (E : Ascii.eqb c "." = false) by (apply Ascii.eqb_neq; auto). clear N.
  assert (X : (Ascii.eqb c ")" || Ascii.eqb c "(" || Ascii.eqb c "." || Ascii.eqb c "[" || special c || Ascii.eqb c "*" || Ascii.eqb c "+" || Ascii.eqb c "?") = false).
  { destruct c as [b0 b1 b2 b3 b4 b5 b6 b7].
    destruct b0, b1, b2, b3, b4, b5, b6, b7; first [reflexivity | discriminate H | discriminate E]. }
  rewrite !orb_false_iff in X. tauto.
Qed.
(** The rest of a text does not start with a repetition. *)
Definition no_rep (l : list ascii) : Prop := match l with c :: _ => Ascii.eqb c "*" = false /\ Ascii.eqb c "+" = false /\ Ascii.eqb c "?" = false | [] => True end.
Lemma no_rep_postfix : forall r l, no_rep l -> postfix r l = (r, l).
Proof. intros r [|c l] H; auto. cbn [postfix no_rep] in *. destruct H as (-> & -> & ->). reflexivity. Qed.
(** The expression of a text followed by another expression: one class for each character. *)
Definition rx_chars (w : word) (r : rx) : rx := fold_right (fun c a => RxSeq (RxClass [IChar c]) a) r w.
Lemma no_rep_app : forall w l, plain_word w -> no_rep l -> no_rep (w ++ l).
Proof. intros [|c w] l H Hl; auto. cbn. inversion H as [|x y Hc Hw]; subst. destruct (plain_atom c Hc) as (_ & _ & _ & _ & _ & X). exact X. Qed.
Lemma read_plain : forall w l, plain_word w -> no_rep l -> forall f r rest, read_seq f l = Some (r, rest) ->
  read_seq (List.length w + f) (w ++ l) = Some (rx_chars w r, rest).
Proof.
  induction w as [|c w IH]; intros l Hw Hl f r rest E; [exact E|]. inversion Hw as [|x y Hc Hw']; subst.
  destruct (plain_atom c Hc) as (E1 & E2 & E3 & E4 & E5 & _). cbn [List.length plus app read_seq]. rewrite E1, E2, E3. unfold read_atom. rewrite E4, E5. cbn [option_map bind fst snd].
  rewrite (no_rep_postfix _ _ (no_rep_app w l Hw' Hl)). rewrite (IH l Hw' Hl f r rest E). reflexivity.
Qed.
Lemma chars_match : forall w r v, rx_matches (rx_chars w r) v <-> exists t, v = w ++ t /\ rx_matches r t.
Proof.
  induction w as [|c w IH]; intros r v; cbn [rx_chars fold_right rx_matches app].
  - split; [intros H; eauto|intros (t & -> & H); auto].
  - fold (rx_chars w r). split.
    + intros (a & b & -> & (d & -> & (i & [<-|[]] & Hd)) & H). cbn in Hd. subst d. apply IH in H as (t & -> & H). exists t. auto.
    + intros (t & -> & H). exists [c], (w ++ t). split; auto. split; [exists c; split; auto; exists (IChar c); split; [left|]; reflexivity|]. apply IH. eauto.
Qed.
(** Enough fuel. *)
Lemma fuel_more : forall f l q, read_seq f l = Some q -> forall k, f <= k -> read_seq k l = Some q.
Proof.
  induction f as [|f IH]; intros l q E k Hk; [discriminate|]. destruct k as [|k]; [lia|]. cbn [read_seq] in *. destruct l as [|c t]; auto.
  destruct (Ascii.eqb c ")"); auto.
  match type of E with bind ?e _ = _ => destruct e as [a|] eqn:Ea; [|discriminate] end. cbn [bind] in E.
  match goal with |- bind ?e _ = _ => assert (Ea' : e = Some a) end.
  { destruct (Ascii.eqb c "("); [|exact Ea]. destruct (read_seq f t) as [q'|] eqn:Et; [|discriminate]. rewrite (IH _ _ Et k) by lia. exact Ea. }
  rewrite Ea'. cbn [bind]. destruct (postfix (fst a) (snd a)) as [r rest]. destruct (read_seq f rest) as [q'|] eqn:Er; [|discriminate]. rewrite (IH _ _ Er k) by lia. exact E.
Qed.
Lemma exact_language : forall p, plain_word p -> exists r, read_rx p = Some r /\ forall w, rx_matches r w <-> w = p.
Proof.
  intros p H. pose proof (read_plain p [] H I 1 RxEmpty [] eq_refl) as E. rewrite app_nil_r in E.
  exists (rx_chars p RxEmpty). split; [unfold read_rx; rewrite Nat.add_comm in E; cbn [plus] in E; rewrite E; reflexivity|].
  intros w. rewrite chars_match. cbn. split; [intros (t & -> & ->); apply app_nil_r|intros ->; exists []; rewrite app_nil_r; auto].
Qed.
Lemma alphabet_class : forall c, in_class [IChar "."; IWord; IChar "/"; IChar "-"] c <-> alphabet c = true.
Proof.
  intros c. unfold in_class, alphabet. rewrite !orb_true_iff, !Ascii.eqb_eq. split.
  - intros (i & [<-|[<-|[<-|[<-|[]]]]] & H); cbn in H; auto.
  - intros [[[H|H]|H]|H]; [exists (IChar ".")|exists IWord|exists (IChar "/")|exists (IChar "-")]; cbn [In in_item]; auto 10.
Qed.
Lemma star_class : forall s w, rx_matches (RxStar (RxClass s)) w <-> Forall (in_class s) w.
Proof.
  intros s w. cbn [rx_matches]. split.
  - intros (ws & -> & H). induction H as [|x l Hx Hl IH]; [constructor|]. destruct Hx as (c & -> & Hc). cbn. constructor; auto.
  - intros H. exists (map (fun c => [c]) w). split; [clear; induction w; cbn; congruence|]. apply Forall_map. apply Forall_impl with (2 := H). intros c Hc. exists c. auto.
Qed.
Lemma prefix_language : forall p, plain_word p -> exists r, read_rx (p ++ text "(/[.\w/\-]*)?") = Some r /\
  forall w, rx_matches r w <-> w = p \/ exists t, w = p ++ "/" :: t /\ over_alphabet t.
Proof.
  intros p H.
  pose (tl := RxSeq (RxOpt (RxSeq (RxClass [IChar "/"]) (RxSeq (RxStar (RxClass [IChar "."; IWord; IChar "/"; IChar "-"])) RxEmpty))) RxEmpty).
  assert (E0 : read_seq 6 (text "(/[.\w/\-]*)?") = Some (tl, [])) by reflexivity.
  pose proof (read_plain p (text "(/[.\w/\-]*)?") H (conj eq_refl (conj eq_refl eq_refl)) 6 tl [] E0) as E.
  exists (rx_chars p tl). split.
  - unfold read_rx. rewrite (fuel_more _ _ _ E) by (rewrite app_length; cbn; lia). reflexivity.
  - intros w. rewrite chars_match. unfold tl. split.
    + intros (t & -> & (a & b & -> & Ha & Hb)). cbn in Hb. subst b. rewrite app_nil_r. destruct Ha as [->|Ha]; [left; apply app_nil_r|right].
      destruct Ha as (u & v & -> & (d & -> & (i & [<-|[]] & Hd)) & (x & y & -> & Hx & Hy)). cbn in Hd, Hy. subst. rewrite app_nil_r. exists x. split; auto.
      apply star_class in Hx. apply Forall_impl with (2 := Hx). intros c Hc. apply alphabet_class. exact Hc.
    + intros [->|(t & -> & Ht)].
      * exists []. rewrite app_nil_r. split; auto. exists [], []. split; auto. split; [left; auto|reflexivity].
      * exists ("/" :: t). split; auto. exists ("/" :: t), []. split; [rewrite app_nil_r; auto|]. split; [|reflexivity]. right. exists ["/"], t. split; auto. split.
        -- exists "/". split; auto. exists (IChar "/"). split; [left|]; reflexivity.
        -- exists t, []. split; [rewrite app_nil_r; auto|]. split; [|reflexivity]. apply star_class. apply Forall_impl with (2 := Ht). intros c Hc. apply alphabet_class. exact Hc.
Qed.

(** ** Host patterns *)
Lemma has_star_false : forall l, has_star l = false <-> ~ In "*" l.
Proof.
  intros l. unfold has_star. split.
  - intros E H. assert (X : existsb (Ascii.eqb "*") l = true) by (apply existsb_exists; exists "*"; auto). congruence.
  - intros H. destruct (existsb _ l) eqn:E; auto. apply existsb_exists in E as (x & Hx & E). apply Ascii.eqb_eq in E as <-. destruct (H Hx).
Qed.
(** A host text without stars: dots became classes. *)
Definition dotted (w : word) : list ascii := replace_char "." (text "[.]") w.
Lemma dotted_cons : forall c w, dotted (c :: w) = (if Ascii.eqb "." c then text "[.]" else [c]) ++ dotted w.
Proof. reflexivity. Qed.
Lemma no_rep_dotted : forall w l, over_alphabet w -> no_rep l -> no_rep (dotted w ++ l).
Proof.
  intros [|c w] l H Hl; auto. rewrite dotted_cons. inversion H as [|x y Hc Hw]; subst. destruct (Ascii.eqb_spec "." c) as [<-|N]; [cbn; auto|].
  cbn. destruct (plain_atom c (conj Hc (fun e => N (eq_sym e)))) as (_ & _ & _ & _ & _ & X). exact X.
Qed.
Lemma read_dotted : forall w l, over_alphabet w -> no_rep l -> forall f r rest, read_seq f l = Some (r, rest) ->
  read_seq (List.length w + f) (dotted w ++ l) = Some (rx_chars w r, rest).
Proof.
  induction w as [|c w IH]; intros l Hw Hl f r rest E; [exact E|]. inversion Hw as [|x y Hc Hw']; subst. rewrite dotted_cons.
  specialize (IH l Hw' Hl f r rest E). pose proof (no_rep_dotted w l Hw' Hl) as NR. destruct (Ascii.eqb_spec "." c) as [<-|N].
  - cbn [text List.length plus]. change (text "[.]" ++ dotted w) with ("[" :: "." :: "]" :: dotted w). cbn [app read_seq]. cbn - [postfix read_seq rx_chars].
    rewrite (no_rep_postfix _ _ NR). rewrite IH. reflexivity.
  - cbn [List.length plus]. change (([c] ++ dotted w) ++ l) with (c :: dotted w ++ l).
    destruct (plain_atom c (conj Hc (fun e => N (eq_sym e)))) as (E1 & E2 & E3 & E4 & E5 & _). cbn [read_seq]. rewrite E1, E2, E3. unfold read_atom. rewrite E4, E5. cbn [option_map bind fst snd].
    rewrite (no_rep_postfix _ _ NR), IH. reflexivity.
Qed.
Lemma dotted_length : forall w, List.length w <= List.length (dotted w).
Proof. induction w as [|c w IH]; auto. rewrite dotted_cons, app_length. cbn [List.length]. destruct (Ascii.eqb "." c); cbn [List.length text]; [change (List.length (text "[.]")) with 3|]; lia. Qed.
Lemma dotted_star : forall w, has_star (dotted w) = has_star w.
Proof.
  induction w as [|c w IH]; auto. rewrite dotted_cons. unfold has_star in *. rewrite existsb_app, IH. cbn [existsb]. destruct (Ascii.eqb_spec "." c) as [<-|N]; [reflexivity|]. cbn [existsb]. rewrite orb_false_r. reflexivity.
Qed.
Lemma replace_none : forall c r w, ~ In c w -> replace_char c r w = w.
Proof.
  intros c r w. induction w as [|d w IH]; intros H; auto. unfold replace_char in *. cbn [flat_map]. destruct (Ascii.eqb_spec c d) as [<-|N]; [destruct H; left; auto|].
  rewrite IH; auto. intros X. apply H. right. auto.
Qed.
Lemma no_star_alphabet : forall w, over_alphabet w -> ~ In "*" w.
Proof. intros w H X. apply (proj1 (Forall_forall _ _) H) in X. discriminate. Qed.
(** A host without a star, and a host with one star at its start. *)
Lemma host_exact : forall v t, host_regex v = Some t -> over_alphabet (text v) -> exists r, read_rx t = Some r /\ forall w, rx_matches r w <-> w = text v.
Proof.
  intros v t E H. unfold host_regex in E. destruct (negb _); [discriminate|]. fold (dotted (text v)) in E. rewrite dotted_star in E.
  rewrite (proj2 (has_star_false _) (no_star_alphabet _ H)) in E. injection E as <-.
  pose proof (read_dotted (text v) [] H I 1 RxEmpty [] eq_refl) as E. rewrite app_nil_r in E.
  exists (rx_chars (text v) RxEmpty). split.
  - unfold read_rx. rewrite (fuel_more _ _ _ E); [reflexivity|]. pose proof (dotted_length (text v)). lia.
  - intros w. rewrite chars_match. cbn. split; [intros (u & -> & ->); apply app_nil_r|intros ->; exists []; rewrite app_nil_r; auto].
Qed.
Lemma word_class : forall w, Forall (in_class [IWord]) w <-> Forall (fun c => word_char c = true) w.
Proof.
  intros w. rewrite !Forall_forall. split; intros H c Hc.
  - destruct (H c Hc) as (i & [<-|[]] & X). exact X.
  - exists IWord. split; [left; auto|]. apply H. auto.
Qed.
Lemma host_wildcard : forall v t p, host_regex v = Some t -> text v = "*" :: p -> over_alphabet p -> exists r, read_rx t = Some r /\
  forall w, rx_matches r w <-> exists x, w = x ++ p /\ Forall (fun c => word_char c = true) x.
Proof.
  intros v t p E Ev H. unfold host_regex in E. destruct (negb _); [discriminate|]. rewrite Ev in E. fold (dotted ("*" :: p)) in E. rewrite dotted_star in E. cbn [has_star existsb Ascii.eqb] in E.
  rewrite dotted_cons in E. cbn [Ascii.eqb app] in E. cbn in E. fold (dotted p) in E.
  assert (N : ~ In "*" (dotted p)) by (apply has_star_false; rewrite dotted_star; apply has_star_false; apply no_star_alphabet; auto).
  assert (Et : t = text "[\w]*" ++ dotted p).
  { change (Some (["["; "\"; "w"; "]"; "*"] ++ replace_char "*" (text "[\w]*") (dotted p)) = Some t) in E. rewrite (replace_none _ _ _ N) in E. injection E as <-. reflexivity. }
  clear E. subst t. pose proof (read_dotted p [] H I 1 RxEmpty [] eq_refl) as E. rewrite app_nil_r in E.
  exists (RxSeq (RxStar (RxClass [IWord])) (rx_chars p RxEmpty)). split.
  - unfold read_rx. assert (E' : read_seq (S (List.length p + 1)) (text "[\w]*" ++ dotted p) = Some (RxSeq (RxStar (RxClass [IWord])) (rx_chars p RxEmpty), [])).
    { change (text "[\w]*" ++ dotted p) with ("[" :: "\" :: "w" :: "]" :: "*" :: dotted p). cbn [read_seq]. cbn - [read_seq rx_chars plus]. rewrite E. reflexivity. }
    rewrite (fuel_more _ _ _ E'); [reflexivity|]. rewrite app_length. pose proof (dotted_length p). cbn. lia.
  - intros w. cbn [rx_matches]. fold (rx_matches (RxStar (RxClass [IWord]))). split.
    + intros (a & b & -> & Ha & Hb). apply chars_match in Hb as (u & -> & Hu). cbn in Hu. subst u. rewrite app_nil_r. exists a. split; auto. apply word_class, star_class. exact Ha.
    + intros (x & -> & Hx). exists x, p. split; auto. split; [apply (proj2 (star_class [IWord] x)); apply word_class; auto|]. apply chars_match. exists []. rewrite app_nil_r. cbn. auto.
Qed.

(** ** The elements of a path *)
(** A path split at its slashes. *)
Fixpoint elements (w : word) : list word :=
  match w with
  | [] => [[]]
  | c :: t => if Ascii.eqb c "/" then [] :: elements t else match elements t with x :: r => (c :: x) :: r | [] => [[c]] end
  end.
Lemma elements_ne : forall w, elements w <> [].
Proof. intros [|c w]; cbn; [discriminate|]. destruct (Ascii.eqb c "/"); [discriminate|]. destruct (elements w); discriminate. Qed.
Lemma elements_app : forall a b, elements (a ++ "/" :: b) = elements a ++ elements b.
Proof.
  induction a as [|c a IH]; intros b; [reflexivity|]. cbn [app elements]. rewrite IH. destruct (Ascii.eqb c "/"); [reflexivity|].
  destruct (elements a) as [|x r] eqn:E; [destruct (elements_ne a E)|reflexivity].
Qed.
Lemma join_elements : forall w, join_texts "/" (elements w) = w.
Proof.
  induction w as [|c w IH]; [reflexivity|]. cbn [elements]. destruct (Ascii.eqb_spec c "/") as [->|N].
  - cbn [join_texts]. destruct (elements w) as [|x r] eqn:E; [destruct (elements_ne w E)|]. rewrite IH. reflexivity.
  - destruct (elements w) as [|x r] eqn:E; [destruct (elements_ne w E)|]. destruct r; cbn [join_texts] in *; [congruence|]. rewrite <- IH. reflexivity.
Qed.
Lemma join_app : forall a b, a <> [] -> b <> [] -> join_texts "/" (a ++ b) = join_texts "/" a ++ "/" :: join_texts "/" b.
Proof.
  induction a as [|x a IH]; intros b Ha Hb; [congruence|]. destruct a as [|y a].
  - cbn [app]. destruct b; [congruence|]. reflexivity.
  - assert (N : y :: a <> []) by discriminate. specialize (IH b N Hb). change ((x :: y :: a) ++ b) with (x :: y :: (a ++ b)). change (y :: a) with (y :: a) in IH. cbn [app] in IH.
    change (join_texts "/" (x :: y :: a ++ b)) with (x ++ "/" :: join_texts "/" (y :: a ++ b)). rewrite IH. change (join_texts "/" (x :: y :: a)) with (x ++ "/" :: join_texts "/" (y :: a)).
    rewrite <- app_assoc. reflexivity.
Qed.
Lemma elements_inj : forall a b, elements a = elements b -> a = b.
Proof. intros a b E. rewrite <- (join_elements a), <- (join_elements b), E. reflexivity. Qed.
Lemma elements_prefix : forall p w, (exists r, elements w = elements p ++ r) <-> w = p \/ exists t, w = p ++ "/" :: t.
Proof.
  intros p w. split.
  - intros (r & E). destruct r as [|x r].
    + rewrite app_nil_r in E. left. apply elements_inj. auto.
    + right. exists (join_texts "/" (x :: r)). rewrite <- (join_elements w), E, join_app, join_elements; auto; [apply elements_ne|discriminate].
  - intros [->|(t & ->)]; [exists []; rewrite app_nil_r; auto|]. exists (elements t). apply elements_app.
Qed.
