(** * The texts of automata: an expression with operators has one meaning, and values that have the same text are the same. *)
From Coq Require Import List Bool Arith Lia String Ascii.
From Verif Require Import TextModel IstioValueModel MinDfaModel MinDfaFacts.
Import ListNotations.
Local Open Scope string_scope.
Local Open Scope list_scope.
Local Open Scope nat_scope.

Fixpoint chars (p : ascii -> bool) (s : string) : bool := match s with EmptyString => true | String c r => p c && chars p r end.
(** Parentheses match: [n] are open. *)
Fixpoint bal (n : nat) (s : string) : bool :=
  match s with
  | EmptyString => n =? 0
  | String c r => if Ascii.eqb c "(" then bal (S n) r else if Ascii.eqb c ")" then match n with 0 => false | S m => bal m r end else bal n r
  end.
Definition opens (s : string) : bool := match s with String c _ => Ascii.eqb c "(" | EmptyString => false end.

Lemma chars_app : forall p s t, chars p (s ++ t)%string = chars p s && chars p t.
Proof. induction s as [|c s IH]; intros t; cbn [append chars]; [reflexivity|]. rewrite IH. apply andb_assoc. Qed.
Lemma bal_app : forall t n k u, bal n t = true -> bal (n + k) (t ++ u)%string = bal k u.
Proof.
  induction t as [|c t IH]; intros n k u H; cbn [bal append] in *.
  - apply Nat.eqb_eq in H. subst n. reflexivity.
  - destruct (Ascii.eqb c "("); [exact (IH (S n) k u H)|]. destruct (Ascii.eqb c ")"); [|exact (IH n k u H)].
    destruct n as [|n]; [discriminate|]. exact (IH n k u H).
Qed.
Lemma bal_cut : forall t t' n r r', bal n t = true -> bal n t' = true -> (t ++ String ")" r = t' ++ String ")" r')%string -> t = t' /\ r = r'.
Proof.
  induction t as [|c t IH]; intros t' n r r' H H' E.
  - destruct t' as [|c' t']; cbn [append] in E; [injection E as <-; split; reflexivity|]. injection E as <- _.
    cbn [bal] in *. apply Nat.eqb_eq in H. subst n. discriminate.
  - destruct t' as [|c' t']; cbn [append] in E.
    + injection E as -> _. cbn [bal] in *. apply Nat.eqb_eq in H'. subst n. discriminate.
    + injection E as <- E. cbn [bal] in H, H'. destruct (Ascii.eqb c "(").
      { destruct (IH t' (S n) r r' H H' E) as [-> ->]. split; reflexivity. }
      destruct (Ascii.eqb c ")").
      { destruct n as [|n]; [discriminate|]. destruct (IH t' n r r' H H' E) as [-> ->]. split; reflexivity. }
      destruct (IH t' n r r' H H' E) as [-> ->]. split; reflexivity.
Qed.

Inductive kind := KOr | KAnd | KSub.
Definition sym (k : kind) : ascii := match k with KOr => "|" | KAnd => "&" | KSub => "-" end.
Definition mid (k : kind) : string := String ")" (String (sym k) (String "(" "")).
Definition sem (k : kind) (P Q : Prop) : Prop := match k with KOr => P \/ Q | KAnd => P /\ Q | KSub => P /\ ~ Q end.
Lemma app_assoc_s : forall a b c : string, ((a ++ b) ++ c = a ++ b ++ c)%string.
Proof. induction a as [|x a IH]; intros b c; [reflexivity|]. cbn [append]. rewrite IH. reflexivity. Qed.
Lemma bal_op : forall k t u, bal 0 t = true -> bal 0 u = true -> bal 0 (op_text (mid k) t u) = true.
Proof.
  intros k t u Ht Hu. unfold op_text. cbn [append]. cbn [bal Ascii.eqb]. cbn. rewrite (bal_app t 0 1 _ Ht). unfold mid. cbn [append].
  destruct k; cbn; rewrite (bal_app u 0 1 _ Hu); reflexivity.
Qed.
Lemma op_text_inj : forall k k' t u t' u', bal 0 t = true -> bal 0 u = true -> bal 0 t' = true -> bal 0 u' = true ->
  op_text (mid k) t u = op_text (mid k') t' u' -> k = k' /\ t = t' /\ u = u'.
Proof.
  intros k k' t u t' u' B1 B2 B3 B4 E. unfold op_text, mid in E. cbn [append] in E. injection E as E.
  destruct (bal_cut _ _ 0 _ _ B1 B3 E) as [-> E2]. injection E2 as Es E2.
  destruct (bal_cut _ _ 0 _ _ B2 B4 E2) as [-> _]. split; [|split; reflexivity]. destruct k, k'; try reflexivity; discriminate Es.
Qed.

(** ** Words and their lists *)
Lemma span_inj : forall p w v c c' r r', chars p w = true -> chars p v = true -> p c = false -> p c' = false ->
  (w ++ String c r = v ++ String c' r')%string -> w = v /\ c = c' /\ r = r'.
Proof.
  intros p. induction w as [|a w IH]; intros v c c' r r' Hw Hv Hc Hc' E; destruct v as [|b v]; cbn [append] in E.
  - injection E as <- <-. split; [reflexivity|split; reflexivity].
  - injection E as <- _. cbn [chars] in Hv. rewrite Hc in Hv. discriminate.
  - injection E as -> _. cbn [chars] in Hw. rewrite Hc' in Hw. discriminate.
  - injection E as <- E. cbn [chars] in Hw, Hv. apply andb_true_iff in Hw, Hv. destruct (IH v c c' r r' (proj2 Hw) (proj2 Hv) Hc Hc' E) as (-> & -> & ->).
    split; [reflexivity|split; reflexivity].
Qed.
Lemma span_none : forall p w v c r, chars p w = true -> p c = false -> w = (v ++ String c r)%string -> False.
Proof. intros p w v c r Hw Hc ->. rewrite chars_app in Hw. cbn [chars] in Hw. rewrite Hc, andb_false_r in Hw. discriminate. Qed.

Lemma join2 : forall a b l, join ", " (a :: b :: l) = (a ++ String "," (String " " (join ", " (b :: l))))%string.
Proof. reflexivity. Qed.
Lemma join_words_inj : forall ws vs, (forall w, In w ws -> chars alphabet w = true) -> (forall w, In w vs -> chars alphabet w = true) ->
  join ", " ws = join ", " vs -> ws = vs \/ ((forall w, In w ws -> w = "") /\ forall w, In w vs -> w = "").
Proof.
  assert (C : alphabet "," = false) by reflexivity.
  assert (One : forall ws, (forall w, In w ws -> chars alphabet w = true) -> join ", " ws = "" -> forall w, In w ws -> w = "").
  { intros ws H E. destruct ws as [|a [|b l]].
    - intros w [].
    - intros w [<-|[]]. exact E.
    - rewrite join2 in E. destruct a; discriminate E. }
  assert (Main : forall ws vs, ws <> [] -> vs <> [] -> (forall w, In w ws -> chars alphabet w = true) -> (forall w, In w vs -> chars alphabet w = true) ->
    join ", " ws = join ", " vs -> ws = vs).
  { induction ws as [|a ws IH]; intros vs Nw Nv Hw Hv E; [contradiction Nw; reflexivity|]. destruct vs as [|b vs]; [contradiction Nv; reflexivity|].
    pose proof (Hw a (or_introl eq_refl)) as Ha. pose proof (Hv b (or_introl eq_refl)) as Hb.
    destruct ws as [|a2 ws]; destruct vs as [|b2 vs].
    - cbn [join] in E. rewrite E. reflexivity.
    - rewrite join2 in E. cbn [join] in E. destruct (span_none alphabet a b _ _ Ha C E).
    - rewrite join2 in E. cbn [join] in E. destruct (span_none alphabet b a _ _ Hb C (eq_sym E)).
    - rewrite !join2 in E. destruct (span_inj alphabet a b _ _ _ _ Ha Hb C C E) as (-> & _ & E2). injection E2 as E2. f_equal.
      apply IH; try discriminate; [intros w H; apply Hw; right; exact H|intros w H; apply Hv; right; exact H|exact E2]. }
  intros ws vs Hw Hv E. destruct ws as [|a ws].
  - right. split; [intros w []|]. apply One; [exact Hv|]. symmetry. exact E.
  - destruct vs as [|b vs].
    + right. split; [|intros w []]. apply One; [exact Hw|exact E].
    + left. apply Main; try assumption; discriminate.
Qed.
Definition plainc (c : ascii) : bool := alphabet c || Ascii.eqb c "," || Ascii.eqb c " ".
Lemma chars_weaken : forall p q s, (forall c, p c = true -> q c = true) -> chars p s = true -> chars q s = true.
Proof.
  intros p q s H. induction s as [|c s IH]; [reflexivity|]. cbn [chars]. intros E. apply andb_true_iff in E. rewrite (H c (proj1 E)), (IH (proj2 E)). reflexivity.
Qed.
Lemma alphabet_plain : forall c, alphabet c = true -> plainc c = true.
Proof. intros c H. unfold plainc. rewrite H. reflexivity. Qed.
Lemma join_plain : forall ws, (forall w, In w ws -> chars alphabet w = true) -> chars plainc (join ", " ws) = true.
Proof.
  induction ws as [|a ws IH]; intros H; [reflexivity|]. pose proof (chars_weaken _ _ a alphabet_plain (H a (or_introl eq_refl))) as Ha.
  destruct ws as [|b ws]; [exact Ha|]. rewrite join2, chars_app, Ha. cbn [chars andb]. apply IH. intros w Hw. apply H. right. exact Hw.
Qed.
Lemma join_not_but : forall ws u, (forall w, In w ws -> chars alphabet w = true) -> join ", " ws = ("all but " ++ u)%string -> False.
Proof.
  intros ws u H E. destruct ws as [|a [|b ws]]; [discriminate| |].
  - cbn [join] in E. apply (span_none alphabet a "all" " " (String "b" (String "u" (String "t" (String " " u))))); [apply H; left; reflexivity|reflexivity|exact E].
  - rewrite join2 in E. destruct (span_inj alphabet a "all" "," " " (String " " (join ", " (b :: ws))) (String "b" (String "u" (String "t" (String " " u))))) as (_ & K & _);
      [apply H; left; reflexivity|reflexivity|reflexivity|reflexivity|exact E|discriminate K].
Qed.

Section Text.
Variable L : fsm_lib.
Variable D : string -> Prop.
Variable dre : string.
Variable allowed : string -> Prop.
Local Notation acc := (accepts L).
Local Notation shown s := (py_replace default_regex "*" s).
Local Notation says := (says L D dre allowed).

(** What the expressions that occur must be like for their texts to be read back: parentheses match, the first character is not one; expressions
    with the same text accept the same words; only the text of an expression with finitely many words is made of the characters of words. *)
Record readable : Prop := {
  r_bal : forall s, allowed s \/ s = dre -> bal 0 (shown s) = true /\ opens (shown s) = false;
  r_same : forall s s' f f', allowed s \/ s = dre -> allowed s' \/ s' = dre -> parse L s = Some f -> parse L s' = Some f' -> shown s = shown s' -> forall x, acc f x = acc f' x;
  r_all : forall s f, allowed s \/ s = dre -> parse L s = Some f -> shown s = "*" -> forall x, acc f x = true <-> D x;
  r_odd : forall s f, allowed s \/ s = dre -> parse L s = Some f -> (forall l, exists x, acc f x = true /\ ~ In x l) -> chars plainc (shown s) = false }.

Definition leaf (t : string) (A : string -> Prop) : Prop :=
  (exists s f, (allowed s \/ s = dre) /\ parse L s = Some f /\ t = shown s /\ forall x, A x <-> acc f x = true) \/ (t = "*" /\ forall x, A x <-> D x).
Lemma says_cases : readable -> forall t A, says t A ->
  (opens t = false /\ leaf t A) \/ exists k u v B C, t = op_text (mid k) u v /\ says u B /\ says v C /\ forall x, A x <-> sem k (B x) (C x).
Proof.
  intros R t A H. destruct H as [s f A Al P E|A E|t u A B C H1 H2 E|t u A B C H1 H2 E|t u A B C H1 H2 E].
  - left. split; [exact (proj2 (r_bal R s Al))|]. left. exists s, f. split; [exact Al|]. split; [exact P|]. split; [reflexivity|exact E].
  - left. split; [reflexivity|]. right. split; [reflexivity|exact E].
  - right. exists KOr, t, u, A, B. split; [reflexivity|]. split; [exact H1|]. split; [exact H2|exact E].
  - right. exists KAnd, t, u, A, B. split; [reflexivity|]. split; [exact H1|]. split; [exact H2|exact E].
  - right. exists KSub, t, u, A, B. split; [reflexivity|]. split; [exact H1|]. split; [exact H2|exact E].
Qed.
Lemma says_bal : readable -> forall t A, says t A -> bal 0 t = true.
Proof.
  intros R t A H. induction H as [s f A Al P E|A E|t u A B C H1 IH1 H2 IH2 E|t u A B C H1 IH1 H2 IH2 E|t u A B C H1 IH1 H2 IH2 E].
  - exact (proj1 (r_bal R s Al)).
  - reflexivity.
  - exact (bal_op KOr t u IH1 IH2).
  - exact (bal_op KAnd t u IH1 IH2).
  - exact (bal_op KSub t u IH1 IH2).
Qed.
Lemma leaf_unique : readable -> forall t A B, leaf t A -> leaf t B -> forall x, A x <-> B x.
Proof.
  intros R t A B [(s & f & Al & P & E & HA)|[E HA]] [(s' & f' & Al' & P' & E' & HB)|[E' HB]] x; rewrite HA, HB.
  - rewrite E in E'. rewrite (r_same R s s' f f' Al Al' P P' E' x). reflexivity.
  - rewrite E in E'. apply (r_all R s f Al P E').
  - rewrite E in E'. symmetry. apply (r_all R s' f' Al' P' (eq_sym E')).
  - reflexivity.
Qed.
Lemma op_opens : forall m u v, opens (op_text m u v) = true.
Proof. reflexivity. Qed.
(** An expression has one meaning. *)
Lemma says_op : readable -> forall k t u A B, says t A -> says u B -> forall C, says (op_text (mid k) t u) C ->
  (forall A', says t A' -> forall x, A x <-> A' x) -> (forall B', says u B' -> forall x, B x <-> B' x) -> forall x, C x <-> sem k (A x) (B x).
Proof.
  intros R k t u A B H1 H2 C H U1 U2. destruct (says_cases R _ _ H) as [[O _]|(k' & t' & u' & A' & B' & E & H1' & H2' & S)]; [rewrite op_opens in O; discriminate|].
  destruct (op_text_inj k k' t u t' u' (says_bal R _ _ H1) (says_bal R _ _ H2) (says_bal R _ _ H1') (says_bal R _ _ H2') E) as (<- & <- & <-).
  intros x. rewrite S. pose proof (U1 A' H1' x) as Q1. pose proof (U2 B' H2' x) as Q2. clear - Q1 Q2. destruct k; cbn [sem]; tauto.
Qed.
Lemma says_unique : readable -> forall t A B, says t A -> says t B -> forall x, A x <-> B x.
Proof.
  intros R t A B H. revert B. induction H as [s f A Al P E|A E|t u A B C H1 IH1 H2 IH2 E|t u A B C H1 IH1 H2 IH2 E|t u A B C H1 IH1 H2 IH2 E]; intros Q HQ x.
  - destruct (says_cases R _ _ HQ) as [[_ F]|(k & u & v & B & C & Et & _)].
    + refine (leaf_unique R _ A Q _ F x). left. exists s, f. split; [exact Al|]. split; [exact P|]. split; [reflexivity|exact E].
    + pose proof (proj2 (r_bal R s Al)) as O. rewrite Et, op_opens in O. discriminate.
  - destruct (says_cases R _ _ HQ) as [[_ F]|(k & u & v & B & C & Et & _)]; [|discriminate Et].
    refine (leaf_unique R _ A Q _ F x). right. split; [reflexivity|exact E].
  - rewrite E. symmetry. exact (says_op R KOr t u A B H1 H2 Q HQ IH1 IH2 x).
  - rewrite E. symmetry. exact (says_op R KAnd t u A B H1 H2 Q HQ IH1 IH2 x).
  - rewrite E. symmetry. exact (says_op R KSub t u A B H1 H2 Q HQ IH1 IH2 x).
Qed.
Lemma says_odd : readable -> forall t A, says t A -> (forall l, exists x, A x /\ ~ In x l) -> chars plainc t = false.
Proof.
  intros R t A H Inf. destruct (says_cases R _ _ H) as [[_ [(s & f & Al & P & -> & E)|[-> _]]]|(k & u & v & B & C & -> & _)]; [|reflexivity|reflexivity].
  apply (r_odd R s f Al P). intros l. destruct (Inf l) as (x & Ax & N). exists x. split; [apply E; exact Ax|exact N].
Qed.

(** Values with the same text are the same, but for no word and the empty word alone. *)
Lemma tells_unique : readable -> (forall x, D x -> chars alphabet x = true) -> forall t (A B : string -> Prop), (forall x, A x -> D x) -> (forall x, B x -> D x) ->
  tells L D dre allowed t A -> tells L D dre allowed t B -> (forall x, A x <-> B x) \/ ((forall x, A x -> x = "") /\ forall x, B x -> x = "").
Proof.
  intros R Dw t A B AD BD.
  assert (Plain : forall ws, (forall w, In w ws -> D w) -> chars plainc (join ", " ws) = true) by (intros ws H; apply join_plain; intros w Hw; exact (Dw w (H w Hw))).
  assert (PlainBut : forall ws, (forall w, In w ws -> D w) -> chars plainc ("all but " ++ join ", " ws)%string = true) by (intros ws H; rewrite chars_app, (Plain ws H); reflexivity).
  intros [(ws & E & _ & HA)|[[E HA]|[(ws & N & E & _ & HA & Hw)|[Inf HA]]]] [(vs & E' & _ & HB)|[[E' HB]|[(vs & N' & E' & _ & HB & Hv)|[Inf' HB]]]].
  - rewrite E in E'. destruct (join_words_inj ws vs) as [<- |[W V]].
    + intros w H. apply Dw, AD, HA. exact H.
    + intros w H. apply Dw, BD, HB. exact H.
    + exact E'.
    + left. intros x. rewrite HA, HB. reflexivity.
    + right. split; intros x Hx; [apply W, HA; exact Hx|apply V, HB; exact Hx].
  - exfalso. rewrite E in E'. assert (K : chars plainc (join ", " ws) = true) by (apply Plain; intros w H; apply AD, HA; exact H). rewrite E' in K. discriminate K.
  - exfalso. rewrite E in E'. apply (join_not_but ws _ (fun w H => Dw w (AD w (proj2 (HA w) H))) E').
  - exfalso. assert (K : chars plainc (join ", " ws) = true) by (apply Plain; intros w H; apply AD, HA; exact H). rewrite <- E, (says_odd R t B HB Inf') in K. discriminate K.
  - exfalso. rewrite E' in E. assert (K : chars plainc (join ", " vs) = true) by (apply Plain; intros w H; apply BD, HB; exact H). rewrite E in K. discriminate K.
  - left. intros x. rewrite HA, HB. reflexivity.
  - exfalso. rewrite E' in E. discriminate E.
  - left. rewrite E in HB. intros x. refine (says_unique R "*" A B _ HB x). apply says_all. exact HA.
  - exfalso. rewrite E in E'. apply (join_not_but vs _ (fun w H => Dw w (BD w (proj2 (HB w) H))) (eq_sym E')).
  - exfalso. rewrite E in E'. discriminate E'.
  - rewrite E in E'. injection E' as E'. destruct (join_words_inj ws vs) as [<- |[W V]].
    + intros w H. exact (Dw w (Hw w H)).
    + intros w H. exact (Dw w (Hv w H)).
    + exact E'.
    + left. intros x. rewrite HA, HB. reflexivity.
    + left. assert (Ew : forall x, In x ws <-> x = "").
      { intros x. split; [apply W|]. intros ->. destruct ws as [|a ws]; [contradiction N; reflexivity|]. left. apply W. left. reflexivity. }
      assert (Ev : forall x, In x vs <-> x = "").
      { intros x. split; [apply V|]. intros ->. destruct vs as [|a vs]; [contradiction N'; reflexivity|]. left. apply V. left. reflexivity. }
      intros x. rewrite HA, HB, Ew, Ev. reflexivity.
  - exfalso. pose proof (PlainBut ws Hw) as K. rewrite <- E, (says_odd R t B HB Inf') in K. discriminate K.
  - exfalso. assert (K : chars plainc (join ", " vs) = true) by (apply Plain; intros w H; apply BD, HB; exact H). rewrite <- E', (says_odd R t A HA Inf) in K. discriminate K.
  - left. rewrite E' in HA. intros x. refine (says_unique R "*" A B HA _ x). apply says_all. exact HB.
  - exfalso. pose proof (PlainBut vs Hv) as K. rewrite <- E', (says_odd R t A HA Inf) in K. discriminate K.
  - left. exact (says_unique R t A B HA HB).
Qed.
End Text.
