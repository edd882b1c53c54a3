(** * C73, C74: automata of hosts and paths — their operators, answers and texts, whatever was computed before. *)
From Coq Require Import List Bool Arith Lia String Ascii.
From Verif Require Import TextModel IstioValueModel MinDfaModel MinDfaFacts MinDfaText.
Import ListNotations.
Local Open Scope string_scope.
Local Open Scope list_scope.
Local Open Scope nat_scope.

Section Spec.
Variable L : fsm_lib.
Variable D : string -> Prop.
Variable dre : string.
Variable allowed : string -> Prop.

(** A dimension: the library computes with sets of words ([lawful]), [dre] is an expression for the words [D], it has a star (as the expressions of
    DimensionsManager.py:43 and :95 have), and there are infinitely many words. *)
Record dimension : Prop := {
  d_law : lawful L;
  d_dom : forall f, parse L dre = Some f -> forall x, accepts L f x = true <-> D x;
  d_star : has_char "*" dre = true;
  d_inf : forall l, exists x, D x /\ ~ In x l }.
(** The expressions that occur match words of the dimension only, and those without a star do not match all of them. *)
Definition inside : Prop := forall s f, allowed s -> parse L s = Some f ->
  (forall x, accepts L f x = true -> D x) /\ (has_char "*" s = false -> exists x, D x /\ accepts L f x = false).

(** The object [a] exists; the words that it stands for. *)
Definition made (w : world L) (a : nat) : Prop := get L w a <> None.
Definition words (w : world L) (a : nat) (x : string) : Prop := exists o, get L w a = Some o /\ accepts L (o_fsm L o) x = true.
(** Objects stand for the same words as before. *)
Definition keeps (w w' : world L) : Prop := forall a, made w a -> made w' a /\ forall x, words w' a x <-> words w a x.
(** An object that stands for the domain of the dimension: it was made by dfa_all_words or as the domain of paths. *)
Definition domain (w : world L) (d : nat) : Prop := exists o, get L w d = Some o /\ o_all L o = T_TRUE.

Lemma words_get : forall w a o x, get L w a = Some o -> (words w a x <-> accepts L (o_fsm L o) x = true).
Proof.
  intros w a o x H. split; [intros (o' & H' & E); rewrite H in H'; injection H' as <-; exact E|]. intros E. exists o. split; [exact H|exact E].
Qed.
Lemma made_get : forall w a, made w a -> exists o, get L w a = Some o.
Proof. intros w a H. destruct (get L w a) as [o|] eqn:E; [exists o; reflexivity|destruct (H E)]. Qed.
Lemma ext_keeps : forall w w', ext L w w' -> keeps w w'.
Proof.
  intros w w' X a H. destruct (made_get w a H) as (o & Ho). destruct (X a o Ho) as (o' & Ho' & E). split.
  - unfold made. rewrite Ho'. discriminate.
  - intros x. rewrite (words_get w' a o' x Ho'), (words_get w a o x Ho), E. reflexivity.
Qed.
Lemma res_words : forall op w w' a b r, ext L w w' -> made w a -> made w b -> res_ok L D op w' a b r -> forall x, D x ->
  exists p q, (words w a x <-> p = true) /\ (words w b x <-> q = true) /\ (words w' r x <-> op p q = true).
Proof.
  intros op w w' a b r X Ha Hb (o1 & o2 & o3 & H1 & H2 & H3 & E) x Dx. destruct (made_get w a Ha) as (p1 & P1). destruct (made_get w b Hb) as (p2 & P2).
  destruct (X _ _ P1) as (p1' & Q1 & E1). rewrite H1 in Q1. injection Q1 as <-. destruct (X _ _ P2) as (p2' & Q2 & E2). rewrite H2 in Q2. injection Q2 as <-.
  exists (accepts L (o_fsm L o1) x), (accepts L (o_fsm L o2) x). split; [|split].
  - rewrite (words_get w a p1 x P1), E1. reflexivity.
  - rewrite (words_get w b p2 x P2), E2. reflexivity.
  - rewrite (words_get w' r o3 x H3), (E x Dx). reflexivity.
Qed.

(** Operators never fail. *)
Lemma or_runs : forall w a b, made w a -> made w b -> exists w' r, dfa_or L w a b = Some (w', r).
Proof.
  intros w a b Ha Hb. unfold dfa_or. destruct (lru_find (eq_pair L w) (a, b) (c_or L w)) as [[e t]|]; [eexists; eexists; reflexivity|].
  destruct (made_get w a Ha) as (x & ->). destruct (made_get w b Hb) as (y & ->). match goal with |- context [let (_, _) := ?X in _] => destruct X end. eexists; eexists; reflexivity.
Qed.
Lemma and_runs : forall w a b, made w a -> made w b -> exists w' r, dfa_and L w a b = Some (w', r).
Proof.
  intros w a b Ha Hb. unfold dfa_and. destruct (lru_find (eq_pair L w) (a, b) (c_and L w)) as [[e t]|]; [eexists; eexists; reflexivity|].
  destruct (made_get w a Ha) as (x & ->). destruct (made_get w b Hb) as (y & ->). match goal with |- context [let (_, _) := ?X in _] => destruct X end. eexists; eexists; reflexivity.
Qed.
Lemma sub_runs : forall w a b, made w a -> made w b -> exists w' r, dfa_sub L w a b = Some (w', r).
Proof.
  intros w a b Ha Hb. unfold dfa_sub. destruct (lru_find (eq_pair L w) (a, b) (c_sub L w)) as [[e t]|]; [eexists; eexists; reflexivity|].
  destruct (made_get w a Ha) as (x & ->). destruct (made_get w b Hb) as (y & ->).
  match goal with |- context [let (_, _) := ?X in _] => destruct X as [w1 r1] end. eexists; eexists; reflexivity.
Qed.
Lemma str_runs : lawful L -> forall w a, made w a -> exists w' t, dfa_str L w a = Some (w', t).
Proof.
  intros HL w a Ha. unfold dfa_str. destruct (lru_find (eq_dfa L w) a (c_str L w)) as [[e t]|]; [eexists; eexists; reflexivity|].
  destruct (made_get w a Ha) as (x & ->). destruct (has_finite L (o_all L x) (o_fsm L x)) eqn:HF.
  - destruct (has_finite_size L _ _ HF) as (n & Sn). rewrite Sn. destruct (strings_text_ok L HL _ n Sn) as (ws & -> & _). eexists; eexists; reflexivity.
  - destruct (is_true (o_all L x)); eexists; eexists; reflexivity.
Qed.

(** C73 (operators): in every state that calls of one dimension lead to, with any expressions, union, intersection and difference of objects made so far
    give the union, the intersection and the difference as to the words of the dimension; no call changes what an object stands for. *)
Theorem C73_operators : dimension -> forall w a b, reached L dre allowed w -> made w a -> made w b ->
  (exists w' r, dfa_or L w a b = Some (w', r) /\ keeps w w' /\ forall x, D x -> (words w' r x <-> words w a x \/ words w b x)) /\
  (exists w' r, dfa_and L w a b = Some (w', r) /\ keeps w w' /\ forall x, D x -> (words w' r x <-> words w a x /\ words w b x)) /\
  (exists w' r, dfa_sub L w a b = Some (w', r) /\ keeps w w' /\ forall x, D x -> (words w' r x <-> words w a x /\ ~ words w b x)).
Proof.
  intros [HL Hd Hs Hi] w a b R Ha Hb.
  assert (I : inv L D dre allowed False False w) by (apply (reached_inv L HL D dre allowed False False Hd Hs Hi); [intros []|intros []|exact R]).
  split; [|split].
  - destruct (or_runs w a b Ha Hb) as (w' & r & E). exists w', r. split; [exact E|].
    destruct (or_step L HL D dre allowed False False Hi (fun f => match f with end) w a b w' r I E Ha Hb) as (_ & X & K). split; [exact (ext_keeps w w' X)|].
    intros x Dx. destruct (res_words orb w w' a b r X Ha Hb K x Dx) as (p & q & P & Q & S). rewrite P, Q, S. apply orb_true_iff.
  - destruct (and_runs w a b Ha Hb) as (w' & r & E). exists w', r. split; [exact E|].
    destruct (and_step L HL D dre allowed False False (fun f => match f with end) w a b w' r I E Ha Hb) as (_ & X & K). split; [exact (ext_keeps w w' X)|].
    intros x Dx. destruct (res_words andb w w' a b r X Ha Hb K x Dx) as (p & q & P & Q & S). rewrite P, Q, S. apply andb_true_iff.
  - destruct (sub_runs w a b Ha Hb) as (w' & r & E). exists w', r. split; [exact E|].
    destruct (sub_step L HL D dre allowed False False Hi w a b w' r I E Ha Hb) as (_ & X & K). split; [exact (ext_keeps w w' X)|].
    intros x Dx. destruct (res_words minus w w' a b r X Ha Hb K x Dx) as (p & q & P & Q & S). rewrite P, Q, S. unfold minus. rewrite andb_true_iff, negb_true_iff, not_true_iff_false. reflexivity.
Qed.

Lemma inside_inv : dimension -> inside -> forall w, reached L dre allowed w -> inv L D dre allowed True False w.
Proof.
  intros [HL Hd Hs Hi] In w R. apply (reached_inv L HL D dre allowed True False Hd Hs Hi); [intros _; exact In|intros []|exact R].
Qed.
Lemma inv_inside : forall rd w a x, inv L D dre allowed True rd w -> words w a x -> D x.
Proof. intros rd w a x I (o & Ho & E). exact (proj1 (proj2 (proj2 (i_obj _ _ _ _ _ _ w I a o Ho)) Logic.I) x E). Qed.

(** C73 (exact): if the expressions stay inside the dimension, so do all objects, and the operators are exact. *)
Theorem C73_exact : dimension -> inside -> forall w a b, reached L dre allowed w -> made w a -> made w b ->
  (forall x, words w a x -> D x) /\
  (exists w' r, dfa_or L w a b = Some (w', r) /\ forall x, words w' r x <-> words w a x \/ words w b x) /\
  (exists w' r, dfa_and L w a b = Some (w', r) /\ forall x, words w' r x <-> words w a x /\ words w b x) /\
  (exists w' r, dfa_sub L w a b = Some (w', r) /\ forall x, words w' r x <-> words w a x /\ ~ words w b x).
Proof.
  intros Dm In w a b R Ha Hb. destruct (C73_operators Dm w a b R Ha Hb) as ((w1 & r1 & E1 & _ & S1) & (w2 & r2 & E2 & _ & S2) & (w3 & r3 & E3 & _ & S3)).
  assert (Rd : forall w', reached L dre allowed w' -> forall c x, words w' c x -> D x) by (intros w' R' c x; exact (inv_inside False w' c x (inside_inv Dm In w' R'))).
  assert (Ok : forall c, (c = COr a b \/ c = CAnd a b \/ c = CSub a b) -> call_ok L dre allowed w c).
  { intros c [-> |[-> | ->]]; split; assumption. }
  split; [exact (Rd w R a)|]. split; [|split].
  - exists w1, r1. split; [exact E1|]. intros x. assert (R1 : reached L dre allowed w1).
    { apply (reached_step L dre allowed w (COr a b) w1 R); [apply Ok; left; reflexivity|]. cbn [step]. rewrite E1. reflexivity. }
    split; [intros H; exact (proj1 (S1 x (Rd w1 R1 r1 x H)) H)|]. intros H. apply S1; [|exact H]. destruct H as [H|H]; exact (Rd w R _ x H).
  - exists w2, r2. split; [exact E2|]. intros x. assert (R2 : reached L dre allowed w2).
    { apply (reached_step L dre allowed w (CAnd a b) w2 R); [apply Ok; right; left; reflexivity|]. cbn [step]. rewrite E2. reflexivity. }
    split; [intros H; exact (proj1 (S2 x (Rd w2 R2 r2 x H)) H)|]. intros H. apply S2; [|exact H]. exact (Rd w R _ x (proj1 H)).
  - exists w3, r3. split; [exact E3|]. intros x. assert (R3 : reached L dre allowed w3).
    { apply (reached_step L dre allowed w (CSub a b) w3 R); [apply Ok; right; right; reflexivity|]. cbn [step]. rewrite E3. reflexivity. }
    split; [intros H; exact (proj1 (S3 x (Rd w3 R3 r3 x H)) H)|]. intros H. apply S3; [|exact H]. exact (Rd w R _ x (proj1 H)).
Qed.

(** C73 (made): an object made from an expression stands for the words of the expression, also when it was made before; the domain stands for all words. *)
Theorem C73_made : dimension -> forall w, reached L dre allowed w ->
  (forall s f, allowed s -> parse L s = Some f -> exists w' a, from_regex L w s = Some (w', a) /\ keeps w w' /\ forall x, words w' a x <-> accepts L f x = true) /\
  (forall f, parse L dre = Some f ->
     (exists w' a, all_words L w dre = Some (w', a) /\ keeps w w' /\ domain w' a) /\ (exists w' a, path_words L w dre = Some (w', a) /\ keeps w w' /\ domain w' a)) /\
  (forall d, domain w d -> forall x, words w d x <-> D x).
Proof.
  intros [HL Hd Hs Hi] w R.
  assert (I : inv L D dre allowed False False w) by (apply (reached_inv L HL D dre allowed False False Hd Hs Hi); [intros []|intros []|exact R]).
  assert (NF : False -> forall s f, allowed s -> parse L s = Some f -> (forall x, accepts L f x = true -> D x) /\ (has_char "*" s = false -> exists x, D x /\ accepts L f x = false)) by (intros []).
  assert (Run : forall s f, parse L s = Some f -> exists w' a, from_regex L w s = Some (w', a)).
  { intros s f P. unfold from_regex. destruct (lru_find String.eqb s (c_regex L w)) as [[e r]|]; [eexists; eexists; reflexivity|]. rewrite P. eexists; eexists; reflexivity. }
  split; [|split].
  - intros s f Al P. destruct (Run s f P) as (w' & a & E). exists w', a. split; [exact E|].
    destruct (from_regex_ok L D dre allowed False False Hd Hs NF w s w' a I (or_introl Al) E) as (_ & X & o & Ho & Po). split; [exact (ext_keeps w w' X)|].
    rewrite P in Po. injection Po as Po. intros x. rewrite (words_get w' a o x Ho), Po. reflexivity.
  - intros f P. destruct (Run dre f P) as (w' & a & E). split.
    + unfold all_words. rewrite E. eexists. exists a. split; [reflexivity|].
      destruct (domain_ok L D dre allowed False False Hd Hs NF w w' a (fun o => set_text L "*" (set_all L T_TRUE o)) I E) as (_ & X & o & Ho & To); try reflexivity; [right; reflexivity|].
      split; [exact (ext_keeps _ _ X)|]. exists o. split; [exact Ho|exact To].
    + unfold path_words. rewrite E. eexists. exists a. split; [reflexivity|].
      destruct (domain_ok L D dre allowed False False Hd Hs NF w w' a (set_all L T_TRUE) I E) as (_ & X & o & Ho & To); try reflexivity; [left; reflexivity|].
      split; [exact (ext_keeps _ _ X)|]. exists o. split; [exact Ho|exact To].
  - intros d (o & Ho & To) x. rewrite (words_get w d o x Ho). exact (proj1 (i_obj _ _ _ _ _ _ w I d o Ho) To x).
Qed.

(** C73 (answers): containment, emptiness, finiteness and being the whole domain are answered rightly, and the example of an object is one of its words. *)
Theorem C73_answers : dimension -> inside -> forall w a b, reached L dre allowed w -> made w a -> made w b ->
  (exists r, contained L w a b = Some r /\ (r = true <-> forall x, words w a x -> words w b x)) /\
  (exists r, nonempty L w a = Some r /\ (r = true <-> exists x, words w a x)) /\
  (exists r, finite_len L w a = Some r /\ (r = true <-> exists l, forall x, words w a x -> In x l)) /\
  (canonical_domain L D -> domain w b -> exists r, is_all L w a b = Some r /\ (r = true <-> forall x, words w a x <-> D x)) /\
  (exists w' r, dfa_rep L w a = Some (w', r) /\ keeps w w' /\ match r with Some x => words w a x | None => forall x, ~ words w a x end).
Proof.
  intros Dm In w a b R Ha Hb. pose proof (inside_inv Dm In w R) as I. destruct Dm as [HL Hd Hs Hi].
  destruct (made_get w a Ha) as (x & Hx). destruct (made_get w b Hb) as (y & Hy).
  destruct (i_obj _ _ _ _ _ _ w I a x Hx) as (X1 & _ & X3). destruct (i_obj _ _ _ _ _ _ w I b y Hy) as (Y1 & _ & Y3).
  destruct (X3 Logic.I) as (XD & XF & _). destruct (Y3 Logic.I) as (YD & YF & _).
  split; [|split; [|split; [|split]]].
  - unfold contained. rewrite Hx, Hy. eexists. split; [reflexivity|].
    assert (Q : (forall s, words w a s -> words w b s) <-> forall s, accepts L (o_fsm L x) s = true -> accepts L (o_fsm L y) s = true).
    { split; intros H s Hs0; [apply (words_get w b y s Hy), H, (words_get w a x s Hx); exact Hs0|apply (words_get w b y s Hy), H, (words_get w a x s Hx); exact Hs0]. }
    rewrite Q. destruct (is_true (o_all L y)) eqn:Ty.
    + split; [|reflexivity]. intros _ s Hs0. apply (Y1 (is_true_eq _ Ty)). exact (XD s Hs0).
    + destruct (is_true (o_all L x) && is_false (o_all L y)) eqn:TF.
      * apply andb_true_iff in TF. destruct TF as [Tx Fy]. split; [discriminate|]. intros H. destruct (YF (is_false_eq _ Fy)) as (s & Ds & As).
        rewrite (H s (proj2 (X1 (is_true_eq _ Tx) s) Ds)) in As. discriminate.
      * apply (subset_ok L HL).
  - unfold nonempty. rewrite Hx. eexists. split; [reflexivity|]. split.
    + intros H. apply negb_true_iff in H. destruct (not_empty_word L HL _ H) as (s & As). exists s. apply (words_get w a x s Hx). exact As.
    + intros (s & Ws). apply (words_get w a x s Hx) in Ws. apply negb_true_iff. destruct (is_empty L (o_fsm L x)) eqn:E; [|reflexivity].
      rewrite (proj1 (empty_ok L HL _) E s) in Ws. discriminate.
  - unfold finite_len. rewrite Hx. eexists. split; [reflexivity|]. split.
    + intros H. destruct (has_finite_size L _ _ H) as (n & Sn). destruct (size_some L HL _ n Sn) as (ws & _ & _ & _ & W). exists ws.
      intros s Ws. apply W. apply (words_get w a x s Hx). exact Ws.
    + intros (l & H). unfold has_finite. destruct (is_true (o_all L x)) eqn:Tx.
      * destruct (Hi l) as (s & Ds & Ns). destruct Ns. apply H. apply (words_get w a x s Hx). apply (X1 (is_true_eq _ Tx)). exact Ds.
      * destruct (size_finite L HL (o_fsm L x) l) as (n & ->); [|reflexivity]. intros s As. apply H. apply (words_get w a x s Hx). exact As.
  - intros Can (o & Ho & To). rewrite Hy in Ho. injection Ho as <-. destruct (is_all_some L w a b x y Hx Hy) as (r & E). exists r. split; [exact E|].
    rewrite (is_all_ok L HL D dre allowed True False Hi w a b x y I Logic.I Can Hx Hy (Y1 To) r E). split; intros H s; [rewrite (words_get w a x s Hx); apply H|rewrite <- (words_get w a x s Hx); apply H].
  - assert (Run : exists w' r, dfa_rep L w a = Some (w', r)).
    { unfold dfa_rep. destruct (lru_find (eq_dfa L w) a (c_rep L w)) as [[e t]|]; [eexists; eexists; reflexivity|]. rewrite Hx.
      destruct (is_empty L (o_fsm L x)) eqn:E; [eexists; eexists; reflexivity|]. destruct (first_ok L HL _ E) as (s & -> & _). eexists; eexists; reflexivity. }
    destruct Run as (w' & r & E). exists w', r. split; [exact E|]. destruct (rep_step L HL D dre allowed True False w a w' r I E Ha) as (_ & X & o & Ho & S).
    split; [exact (ext_keeps w w' X)|]. destruct (X a x Hx) as (o' & Ho' & Eo). rewrite Ho in Ho'. injection Ho' as <-. rewrite Eo in S. destruct r as [s|].
    + apply (words_get w a x s Hx). exact S.
    + intros s Ws. apply (words_get w a x s Hx) in Ws. rewrite (S s) in Ws. discriminate.
Qed.

(** C74 (text): the text of values lists their words, is a star for the whole domain, lists the words that are missing, or is an expression for them. *)
Theorem C74_text : dimension -> inside -> readable L D dre allowed -> canonical_domain L D -> forall w d a, reached L dre allowed w -> made w a -> domain w d ->
  exists w' t, values_str L w d a = Some (w', t) /\ keeps w w' /\ tells L D dre allowed t (words w a).
Proof.
  intros Dm In Rd Can w d a R Ha Hd0. destruct Dm as [HL Hd Hs Hi]. destruct Hd0 as (y & Hy & Ty). destruct (made_get w a Ha) as (x & Hx).
  assert (I : inv L D dre allowed True True w) by (apply (reached_inv L HL D dre allowed True True Hd Hs Hi); [intros _; exact In|intros _; exact (says_unique L D dre allowed Rd)|exact R]).
  assert (Run : exists w' t, values_str L w d a = Some (w', t)).
  { unfold values_str. rewrite Hx. destruct (is_all_some L w a d x y Hx Hy) as (r & Er). rewrite Er.
    destruct (has_finite L (o_all L x) (o_fsm L x)); [exact (str_runs HL w a Ha)|]. destruct r; [eexists; eexists; reflexivity|].
    assert (C : exists w1 c, (match o_comp L x with Some c => Some (w, c) | None => dfa_sub L w d a end) = Some (w1, c) /\ made w1 c /\ made w1 a).
    { destruct (o_comp L x) as [c|] eqn:Cx.
      - exists w, c. split; [reflexivity|]. split; [|exact Ha]. destruct (proj1 (proj2 (i_obj _ _ _ _ _ _ w I a x Hx)) c Cx) as (z & Hz & _). unfold made. rewrite Hz. discriminate.
      - assert (Md : made w d) by (unfold made; rewrite Hy; discriminate). destruct (sub_runs w d a Md Ha) as (w1 & c & E). exists w1, c. split; [exact E|].
        destruct (sub_step L HL D dre allowed True True Hi w d a w1 c I E Md Ha) as (_ & X & x' & y' & z & _ & _ & Hz & _). split; [unfold made; rewrite Hz; discriminate|].
        exact (proj1 (ext_keeps w w1 X a Ha)). }
    destruct C as (w1 & c & -> & Mc & Ma). destruct (made_get w1 c Mc) as (z & Hz). unfold finite_len. rewrite Hz. cbn [option_map].
    destruct (has_finite L (o_all L z) (o_fsm L z)).
    - destruct (str_runs HL w1 c Mc) as (w2 & t & ->). eexists; eexists; reflexivity.
    - exact (str_runs HL w1 a Ma). }
  destruct Run as (w' & t & E). exists w', t. split; [exact E|]. destruct (values_step L HL D dre allowed True True Hi w d a w' t y I E Ha Hy Ty) as (_ & X & K).
  split; [exact (ext_keeps w w' X)|]. destruct (K Logic.I Logic.I Can) as (o & Ho & T). destruct (X a x Hx) as (o' & Ho' & Eo). rewrite Ho in Ho'. injection Ho' as <-. rewrite Eo in T.
  assert (Q : forall s, words w a s <-> accepts L (o_fsm L x) s = true) by (intros s; exact (words_get w a x s Hx)).
  destruct T as [(ws & A & B & C)|[[A B]|[(ws & A & B & C & F & G)|[A B]]]].
  - left. exists ws. split; [exact A|]. split; [exact B|]. intros s. rewrite Q. exact (C s).
  - right. left. split; [exact A|]. intros s. rewrite Q. exact (B s).
  - right. right. left. exists ws. split; [exact A|]. split; [exact B|]. split; [exact C|]. split; [intros s; rewrite Q; exact (F s)|exact G].
  - right. right. right. split.
    + intros l. destruct (A l) as (s & As & Ns). exists s. split; [apply Q; exact As|exact Ns].
    + exact (says_ext L D dre allowed t _ B (words w a) Q).
Qed.

(** C74 (same text): values with the same text, asked for in any two states, are the same, but for no word at all and the empty word alone. *)
Theorem C74_same_text : dimension -> inside -> readable L D dre allowed -> canonical_domain L D -> (forall x, D x -> chars alphabet x = true) ->
  forall w1 d1 a1 w2 d2 a2 w1' w2' t, reached L dre allowed w1 -> made w1 a1 -> domain w1 d1 -> reached L dre allowed w2 -> made w2 a2 -> domain w2 d2 ->
  values_str L w1 d1 a1 = Some (w1', t) -> values_str L w2 d2 a2 = Some (w2', t) ->
  (forall x, words w1 a1 x <-> words w2 a2 x) \/ ((forall x, words w1 a1 x -> x = "") /\ forall x, words w2 a2 x -> x = "").
Proof.
  intros Dm In Rd Can Al w1 d1 a1 w2 d2 a2 w1' w2' t R1 M1 D1 R2 M2 D2 E1 E2.
  destruct (C74_text Dm In Rd Can w1 d1 a1 R1 M1 D1) as (v1 & t1 & F1 & _ & T1). rewrite E1 in F1. injection F1 as <- <-.
  destruct (C74_text Dm In Rd Can w2 d2 a2 R2 M2 D2) as (v2 & t2 & F2 & _ & T2). rewrite E2 in F2. injection F2 as <- <-.
  apply (tells_unique L D dre allowed Rd Al t); try assumption.
  - intros x. exact (inv_inside False w1 a1 x (inside_inv Dm In w1 R1)).
  - intros x. exact (inv_inside False w2 a2 x (inside_inv Dm In w2 R2)).
Qed.
End Spec.
