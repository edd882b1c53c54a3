(** * Facts about the model of MinDFA: what the flags, the links to complements, the texts and the caches say is true in every state that calls lead to. *)
From Coq Require Import List Bool Arith Lia String Ascii.
From Verif Require Import TextModel MinDfaModel.
Import ListNotations.
Local Open Scope string_scope.
Local Open Scope list_scope.
Local Open Scope nat_scope.

(** What is assumed of the library: the operations are those of sets of words, and automata that [__eq__] takes for equal accept the same words. *)
Record lawful (L : fsm_lib) : Prop := {
  same_ok : forall f g, same L f g = true -> forall x, accepts L f x = accepts L g x;
  or_ok : forall f g x, accepts L (f_or L f g) x = accepts L f x || accepts L g x;
  and_ok : forall f g x, accepts L (f_and L f g) x = accepts L f x && accepts L g x;
  sub_ok : forall f g x, accepts L (f_sub L f g) x = accepts L f x && negb (accepts L g x);
  subset_ok : forall f g, is_subset L f g = true <-> forall x, accepts L f x = true -> accepts L g x = true;
  empty_ok : forall f, is_empty L f = true <-> forall x, accepts L f x = false;
  size_some : forall f n, size L f = Some n -> exists ws, List.length ws = n /\ NoDup ws /\ (forall i, i < n -> nth_string L f i = nth_error ws i) /\
    forall x, accepts L f x = true <-> In x ws;
  size_none : forall f, size L f = None -> forall l, exists x, accepts L f x = true /\ ~ In x l;
  first_ok : forall f, is_empty L f = false -> exists x, nth_string L f 0 = Some x /\ accepts L f x = true }.

(** ** Caches *)
Lemma lru_find_in : forall K V (eqk : K -> K -> bool) k (c : list (K * V)) e r, lru_find eqk k c = Some (e, r) ->
  In e c /\ eqk k (fst e) = true /\ forall x, In x r -> In x c.
Proof.
  induction c as [|[k' v] t IH]; intros e r H; cbn [lru_find] in H; [discriminate|].
  destruct (eqk k k') eqn:E.
  - injection H as <- <-. split; [left; reflexivity|]. split; [exact E|]. intros x Hx. right. exact Hx.
  - destruct (lru_find eqk k t) as [[e0 r0]|] eqn:F; [|discriminate]. injection H as <- <-.
    destruct (IH _ _ eq_refl) as (A & B & C). split; [right; exact A|]. split; [exact B|].
    intros x [<-|Hx]; [left; reflexivity|right; exact (C x Hx)].
Qed.
Lemma lru_add_in : forall K V (k : K) (v : V) c x, In x (lru_add k v c) -> x = (k, v) \/ In x c.
Proof.
  intros K V k v c x H. unfold lru_add in H.
  assert (H2 : In x ((k, v) :: c)). { rewrite <- (firstn_skipn maxsize ((k, v) :: c)). apply in_or_app. left. exact H. }
  destruct H2 as [<-|H2]; [left; reflexivity|right; exact H2].
Qed.

Lemma option_map_fst : forall A B (o : option (A * B)) a, option_map fst o = Some a -> exists b, o = Some (a, b).
Proof. intros A B [[x y]|] a H; [injection H as <-; exists y; reflexivity|discriminate]. Qed.

Section Facts.
Variable L : fsm_lib.
Hypothesis HL : lawful L.
(** The words of the dimension, and the expression of its domain. *)
Variable D : string -> Prop.
Variable dre : string.
(** The expressions that occur, whether they stay within the dimension, and whether their texts can be read. *)
Variable allowed : string -> Prop.
Variable full : Prop.
Variable rd : Prop.

(** ** What a text with operators says *)
Inductive says : string -> (string -> Prop) -> Prop :=
  | says_re : forall s f A, allowed s \/ s = dre -> parse L s = Some f -> (forall x, A x <-> accepts L f x = true) -> says (py_replace default_regex "*" s) A
  | says_all : forall A, (forall x, A x <-> D x) -> says "*" A
  | says_or : forall t u A B C, says t A -> says u B -> (forall x, C x <-> A x \/ B x) -> says (op_text ")|(" t u) C
  | says_and : forall t u A B C, says t A -> says u B -> (forall x, C x <-> A x /\ B x) -> says (op_text ")&(" t u) C
  | says_sub : forall t u A B C, says t A -> says u B -> (forall x, C x <-> A x /\ ~ B x) -> says (op_text ")-(" t u) C.

Hypothesis Hdre : forall f, parse L dre = Some f -> forall x, accepts L f x = true <-> D x.
Hypothesis Hstar : has_char "*" dre = true.
Hypothesis Hinf : forall l, exists x, D x /\ ~ In x l.
Hypothesis Hfull : full -> forall s f, allowed s -> parse L s = Some f ->
  (forall x, accepts L f x = true -> D x) /\ (has_char "*" s = false -> exists x, D x /\ accepts L f x = false).
Hypothesis Htext : rd -> forall t A B, says t A -> says t B -> forall x, A x <-> B x.

Local Notation obj := (obj L).
Local Notation world := (world L).
Local Notation acc := (accepts L).

Lemma says_ext : forall t A, says t A -> forall B, (forall x, B x <-> A x) -> says t B.
Proof.
  intros t A H B E. destruct H.
  - eapply says_re; eauto. intros x. rewrite E. auto.
  - apply says_all. intros x. rewrite E. auto.
  - eapply says_or; eauto. intros x. rewrite E. auto.
  - eapply says_and; eauto. intros x. rewrite E. auto.
  - eapply says_sub; eauto. intros x. rewrite E. auto.
Qed.

(** What the text of [__str__] says: the words, or an expression for infinitely many. *)
Definition str_tells (t : string) (A : string -> Prop) : Prop :=
  (exists ws, t = join ", " ws /\ NoDup ws /\ forall x, A x <-> In x ws) \/ ((forall l, exists x, A x /\ ~ In x l) /\ says t A).
Lemma str_tells_ext : forall t A B, str_tells t A -> (forall x, B x <-> A x) -> str_tells t B.
Proof.
  intros t A B [(ws & E & N & H)|[I S]] EQ.
  - left. exists ws. split; [exact E|]. split; [exact N|]. intros x. rewrite EQ. apply H.
  - right. split; [|exact (says_ext t A S B EQ)]. intros l. destruct (I l) as (x & Ax & Nx). exists x. split; [apply EQ; exact Ax|exact Nx].
Qed.

(** ** The invariant *)
Definition obj_ok (w : world) (o : obj) : Prop :=
  (o_all L o = T_TRUE -> forall x, acc (o_fsm L o) x = true <-> D x) /\
  (forall c, o_comp L o = Some c -> exists y, get L w c = Some y /\ forall x, D x -> acc (o_fsm L y) x = negb (acc (o_fsm L o) x)) /\
  (full -> (forall x, acc (o_fsm L o) x = true -> D x) /\ (o_all L o = T_FALSE -> exists x, D x /\ acc (o_fsm L o) x = false) /\
           (rd -> says (o_text L o) (fun x => acc (o_fsm L o) x = true))).
Definition memo (w : world) (op : bool -> bool -> bool) (c : list ((nat * nat) * nat)) : Prop :=
  forall a b r, In ((a, b), r) c -> exists x y z, get L w a = Some x /\ get L w b = Some y /\ get L w r = Some z /\
    forall s, D s -> acc (o_fsm L z) s = op (acc (o_fsm L x) s) (acc (o_fsm L y) s).
Definition minus (a b : bool) : bool := a && negb b.
Record inv (w : world) : Prop := {
  i_obj : forall a o, get L w a = Some o -> obj_ok w o;
  i_regex : forall s a, In (s, a) (c_regex L w) -> (allowed s \/ s = dre) /\ exists o, get L w a = Some o /\ parse L s = Some (o_fsm L o);
  i_or : memo w orb (c_or L w);
  i_and : memo w andb (c_and L w);
  i_sub : memo w minus (c_sub L w);
  i_str : full -> rd -> forall a t, In (a, t) (c_str L w) -> exists o, get L w a = Some o /\ str_tells t (fun x => acc (o_fsm L o) x = true);
  i_rep : forall a r, In (a, r) (c_rep L w) -> exists o, get L w a = Some o /\
    match r with None => forall x, acc (o_fsm L o) x = false | Some s => acc (o_fsm L o) s = true end }.

(** Objects keep their automata. *)
Definition ext (w w' : world) : Prop := forall a o, get L w a = Some o -> exists o', get L w' a = Some o' /\ o_fsm L o' = o_fsm L o.
Lemma ext_refl : forall w, ext w w.
Proof. intros w a o H. exists o. split; [exact H|reflexivity]. Qed.
Lemma ext_trans : forall w1 w2 w3, ext w1 w2 -> ext w2 w3 -> ext w1 w3.
Proof.
  intros w1 w2 w3 A B a o H. destruct (A _ _ H) as (o' & H' & E). destruct (B _ _ H') as (o2 & H2 & E2). exists o2. split; [exact H2|].
  rewrite E2. exact E.
Qed.
Lemma memo_ext : forall w w' op c, ext w w' -> memo w op c -> memo w' op c.
Proof.
  intros w w' op c X M a b r H. destruct (M a b r H) as (x & y & z & Hx & Hy & Hz & E).
  destruct (X _ _ Hx) as (x' & Hx' & Ex). destruct (X _ _ Hy) as (y' & Hy' & Ey). destruct (X _ _ Hz) as (z' & Hz' & Ez).
  exists x', y', z'. rewrite Ex, Ey, Ez. split; [exact Hx'|]. split; [exact Hy'|]. split; [exact Hz'|exact E].
Qed.
Lemma memo_sub : forall w op c c', memo w op c -> (forall e, In e c' -> In e c) -> memo w op c'.
Proof. intros w op c c' M S a b r H. exact (M a b r (S _ H)). Qed.

(** A change of the heap alone that keeps automata and keeps the objects right keeps the invariant. *)
Lemma inv_heap : forall w h, inv w -> ext w (with_heap L w h) -> (forall a o, nth_error h a = Some o -> obj_ok (with_heap L w h) o) -> inv (with_heap L w h).
Proof.
  intros w h I X O. split.
  - intros a o H. exact (O a o H).
  - intros s a H. destruct (i_regex w I s a H) as (Al & o & Ho & E). split; [exact Al|]. destruct (X _ _ Ho) as (o' & Ho' & E').
    exists o'. split; [exact Ho'|]. rewrite E'. exact E.
  - exact (memo_ext w _ _ _ X (i_or w I)).
  - exact (memo_ext w _ _ _ X (i_and w I)).
  - exact (memo_ext w _ _ _ X (i_sub w I)).
  - intros F Rd a t H. destruct (i_str w I F Rd a t H) as (o & Ho & E). destruct (X _ _ Ho) as (o' & Ho' & E'). exists o'. split; [exact Ho'|]. rewrite E'. exact E.
  - intros a r H. destruct (i_rep w I a r H) as (o & Ho & E). destruct (X _ _ Ho) as (o' & Ho' & E'). exists o'. split; [exact Ho'|]. rewrite E'. exact E.
Qed.
Lemma obj_ok_ext : forall w w' o, ext w w' -> obj_ok w o -> obj_ok w' o.
Proof.
  intros w w' o X (A & B & C). split; [exact A|]. split; [|exact C].
  intros c H. destruct (B c H) as (y & Hy & E). destruct (X _ _ Hy) as (y' & Hy' & E'). exists y'. split; [exact Hy'|]. rewrite E'. exact E.
Qed.

Lemma get_make : forall w o w' a, make L w o = (w', a) -> get L w' a = Some o /\ ext w w' /\ (forall b x, get L w' b = Some x -> get L w b = Some x \/ x = o) /\ w' = with_heap L w (heap L w ++ [o]) /\ get L w a = None.
Proof.
  intros w o w' a H. unfold make in H. injection H as <- <-. unfold get. cbn [with_heap heap].
  split; [rewrite nth_error_app2 by lia; rewrite Nat.sub_diag; reflexivity|]. split.
  - intros b x Hb. exists x. split; [|reflexivity]. unfold get in *. cbn [heap with_heap]. rewrite nth_error_app1; [exact Hb|]. apply nth_error_Some. rewrite Hb. discriminate.
  - split.
    + intros b x Hb. destruct (Nat.lt_ge_cases b (List.length (heap L w))) as [Hl|Hl].
      * rewrite nth_error_app1 in Hb by exact Hl. left. exact Hb.
      * rewrite nth_error_app2 in Hb by exact Hl. destruct (b - List.length (heap L w)) as [|k]; [injection Hb as <-; right; reflexivity|].
        destruct k; discriminate.
    + split; [reflexivity|]. apply nth_error_None. lia.
Qed.
Lemma inv_make : forall w o w' a, inv w -> make L w o = (w', a) -> obj_ok w' o -> inv w'.
Proof.
  intros w o w' a I H O. destruct (get_make w o w' a H) as (G & X & Old & E & _). rewrite E in X |- *. apply (inv_heap w _ I X).
  intros b x Hb. rewrite <- E in *. destruct (Old b x) as [Ho| ->].
  - rewrite E. exact Hb.
  - exact (obj_ok_ext w w' x X (i_obj w I b x Ho)).
  - exact O.
Qed.

Lemma nth_upd : forall h a f b, nth_error (upd L h a f) b = if a =? b then option_map f (nth_error h b) else nth_error h b.
Proof.
  induction h as [|o t IH]; intros a f b; cbn [upd].
  - destruct b; destruct (a =? _); reflexivity.
  - destruct a as [|a]; destruct b as [|b]; cbn [nth_error Nat.eqb]; try reflexivity. apply IH.
Qed.
Lemma get_change : forall w a f b, get L (change L w a f) b = if a =? b then option_map f (get L w b) else get L w b.
Proof. intros w a f b. unfold get, change, with_heap. cbn [heap]. apply nth_upd. Qed.
Lemma change_ext : forall w a f, (forall o, o_fsm L (f o) = o_fsm L o) -> ext w (change L w a f).
Proof.
  intros w a f E b o H. rewrite get_change. destruct (a =? b); [|exists o; split; [exact H|reflexivity]].
  exists (f o). rewrite H. split; [reflexivity|apply E].
Qed.
Lemma inv_change : forall w a f, inv w -> (forall o, o_fsm L (f o) = o_fsm L o) -> (forall o, get L w a = Some o -> obj_ok (change L w a f) (f o)) -> inv (change L w a f).
Proof.
  intros w a f I E O. apply (inv_heap w _ I (change_ext w a f E)).
  intros b o H. assert (G : get L (change L w a f) b = Some o) by exact H. rewrite get_change in G.
  destruct (a =? b) eqn:N.
  - apply Nat.eqb_eq in N. subst b. destruct (get L w a) as [x|] eqn:Gx; [|discriminate]. cbn [option_map] in G. injection G as <-. exact (O x eq_refl).
  - exact (obj_ok_ext w _ o (change_ext w a f E) (i_obj w I b o G)).
Qed.

(** Equal keys have the same words. *)
Lemma eq_dfa_acc : forall w a b x y, eq_dfa L w a b = true -> get L w a = Some x -> get L w b = Some y -> forall s, acc (o_fsm L x) s = acc (o_fsm L y) s.
Proof.
  intros w a b x y H Hx Hy s. unfold eq_dfa in H. rewrite Hx, Hy in H. apply orb_true_iff in H. destruct H as [H|H].
  - apply Nat.eqb_eq in H. subst b. rewrite Hx in Hy. injection Hy as <-. reflexivity.
  - exact (same_ok L HL _ _ H s).
Qed.

Lemma is_true_eq : forall t, is_true t = true -> t = T_TRUE.
Proof. intros []; try discriminate. reflexivity. Qed.
Lemma is_false_eq : forall t, is_false t = true -> t = T_FALSE.
Proof. intros []; try discriminate. reflexivity. Qed.

Lemma d_word : exists x, D x.
Proof. destruct (Hinf []) as (x & H & _). exists x. exact H. Qed.
Lemma finite_not_all : forall f n, size L f = Some n -> exists x, D x /\ acc f x = false.
Proof.
  intros f n H. destruct (size_some L HL f n H) as (ws & _ & _ & _ & E). destruct (Hinf ws) as (x & Dx & N). exists x. split; [exact Dx|].
  destruct (acc f x) eqn:A; [|reflexivity]. exfalso. apply N. apply E. exact A.
Qed.
Lemma has_finite_size : forall t f, has_finite L t f = true -> exists n, size L f = Some n.
Proof. intros t f H. unfold has_finite in H. destruct (is_true t); [discriminate|]. destruct (size L f) as [n|]; [exists n; reflexivity|discriminate]. Qed.

(** ** Making objects *)
Lemma from_regex_ok : forall w s w' a, inv w -> allowed s \/ s = dre -> from_regex L w s = Some (w', a) ->
  inv w' /\ ext w w' /\ exists o, get L w' a = Some o /\ parse L s = Some (o_fsm L o).
Proof.
  intros w s w' a I Al H. unfold from_regex in H. destruct (lru_find String.eqb s (c_regex L w)) as [[e r]|] eqn:F.
  - injection H as <- <-. destruct (lru_find_in _ _ _ _ _ _ _ F) as (Hin & Ek & Sub).
    destruct e as [k v]. cbn [fst] in Ek. apply String.eqb_eq in Ek. subst k. cbn [snd].
    split; [|split; [exact (ext_refl w)|exact (proj2 (i_regex w I s v Hin))]].
    destruct I. split; try assumption. intros s0 a0 [E|H0]; [injection E as <- <-; exact (i_regex0 s v Hin)|exact (i_regex0 _ _ (Sub _ H0))].
  - destruct (parse L s) as [f|] eqn:P; [|discriminate].
    destruct (make L w _) as [w1 a1] eqn:M. injection H as <- <-.
    destruct (get_make _ _ _ _ M) as (G & X & _ & E & _).
    assert (I1 : inv w1).
    { apply (inv_make _ _ _ _ I M). split; [|split].
      - cbn [o_all]. destruct (has_char "*" s); discriminate.
      - cbn [o_comp]. discriminate.
      - intros F0. cbn [o_fsm o_all o_text]. assert (In1 : (forall x, acc f x = true -> D x) /\ (has_char "*" s = false -> exists x, D x /\ acc f x = false)).
        { destruct Al as [Al| ->]; [exact (Hfull F0 s f Al P)|]. split; [intros x; apply (Hdre f P)|]. rewrite Hstar. discriminate. }
        destruct In1 as [A B]. split; [exact A|]. split.
        + destruct (has_char "*" s); [discriminate|]. intros _. exact (B eq_refl).
        + intros Rd. apply (says_re s f); [exact Al|exact P|]. intros x. reflexivity. }
    split; [|split; [exact X|exists (mkobj L f (if has_char "*" s then T_UNKNOWN else T_FALSE) None (py_replace default_regex "*" s)); split; [exact G|reflexivity]]].
    destruct I1. split; try assumption. intros s0 a0 H0. cbn [with_regex c_regex] in H0. destruct (lru_add_in _ _ _ _ _ _ H0) as [E0|H1].
    + injection E0 as -> ->. split; [exact Al|]. eexists. split; [exact G|]. exact P.
    + exact (i_regex0 _ _ H1).
Qed.
Lemma domain_ok : forall w w' a f, inv w -> from_regex L w dre = Some (w', a) -> (forall o, o_fsm L (f o) = o_fsm L o) -> (forall o, o_all L (f o) = T_TRUE) ->
  (forall o, o_comp L (f o) = o_comp L o) -> (forall o, o_text L (f o) = o_text L o \/ o_text L (f o) = "*") ->
  inv (change L w' a f) /\ ext w (change L w' a f) /\ exists o, get L (change L w' a f) a = Some o /\ o_all L o = T_TRUE.
Proof.
  intros w w' a f I H E1 E2 E3 E4. destruct (from_regex_ok w dre w' a I (or_intror eq_refl) H) as (I' & X & o & G & P).
  split; [|split].
  - apply (inv_change w' a f I' E1). intros o0 G0. rewrite G in G0. injection G0 as <-.
    pose proof (Hdre _ P) as HD.
    apply (obj_ok_ext w' _ _ (change_ext w' a f E1)).
    destruct (i_obj w' I' a o G) as (A & B & C). split; [|split].
    + intros _ x. rewrite E1. apply HD.
    + intros c Hc. rewrite E3 in Hc. rewrite E1. exact (B c Hc).
    + intros F. destruct (C F) as (C1 & C2 & C3). rewrite E1, E2. split; [exact C1|]. split; [discriminate|].
      destruct (E4 o) as [-> | ->]; [exact C3|]. intros _. apply says_all. exact HD.
  - exact (ext_trans _ _ _ X (change_ext w' a f E1)).
  - exists (f o). rewrite get_change, Nat.eqb_refl, G. split; [reflexivity|apply E2].
Qed.

(** ** Operators *)
Definition res_ok (op : bool -> bool -> bool) (w : world) (a b r : nat) : Prop :=
  exists x y z, get L w a = Some x /\ get L w b = Some y /\ get L w r = Some z /\
    forall s, D s -> acc (o_fsm L z) s = op (acc (o_fsm L x) s) (acc (o_fsm L y) s).
Lemma hit_ok : forall w op c a b e r x y, memo w op c -> lru_find (eq_pair L w) (a, b) c = Some (e, r) -> get L w a = Some x -> get L w b = Some y -> res_ok op w a b (snd e).
Proof.
  intros w op c a b e r x y M F Hx Hy. destruct (lru_find_in _ _ _ _ _ _ _ F) as (Hin & Ek & _). destruct e as [[k1 k2] v]. cbn [fst snd] in *.
  unfold eq_pair in Ek. cbn [fst snd] in Ek. apply andb_true_iff in Ek. destruct Ek as [K1 K2].
  destruct (M k1 k2 v Hin) as (x' & y' & z & Hx' & Hy' & Hz & E). exists x, y, z. split; [exact Hx|]. split; [exact Hy|]. split; [exact Hz|].
  intros s Ds. rewrite (eq_dfa_acc w a k1 x x' K1 Hx Hx' s), (eq_dfa_acc w b k2 y y' K2 Hy Hy' s). exact (E s Ds).
Qed.
Lemma memo_hit : forall w op c k e r, memo w op c -> lru_find (eq_pair L w) k c = Some (e, r) -> memo w op (e :: r).
Proof.
  intros w op c k e r M F. destruct (lru_find_in _ _ _ _ _ _ _ F) as (Hin & _ & Sub). apply (memo_sub w op c); [exact M|].
  intros e0 [<-|H]; [exact Hin|exact (Sub _ H)].
Qed.
Lemma memo_add : forall w op c a b r, memo w op c -> res_ok op w a b r -> memo w op (lru_add (a, b) r c).
Proof.
  intros w op c a b r M R a0 b0 r0 H. destruct (lru_add_in _ _ _ _ _ _ H) as [E|H1]; [|exact (M a0 b0 r0 H1)].
  injection E as -> -> ->. exact R.
Qed.
Lemma res_ok_ext : forall op w w' a b r, ext w w' -> res_ok op w a b r -> res_ok op w' a b r.
Proof.
  intros op w w' a b r X (x & y & z & Hx & Hy & Hz & E). destruct (X _ _ Hx) as (x' & Hx' & Ex). destruct (X _ _ Hy) as (y' & Hy' & Ey).
  destruct (X _ _ Hz) as (z' & Hz' & Ez). exists x', y', z'. rewrite Ex, Ey, Ez. split; [exact Hx'|]. split; [exact Hy'|]. split; [exact Hz'|exact E].
Qed.

Lemma or_step : forall w a b w' r, inv w -> dfa_or L w a b = Some (w', r) -> get L w a <> None -> get L w b <> None -> inv w' /\ ext w w' /\ res_ok orb w' a b r.
Proof.
  intros w a b w' r I H Na Nb. unfold dfa_or in H.
  destruct (get L w a) as [x|] eqn:Hx; [|contradiction Na; reflexivity]. destruct (get L w b) as [y|] eqn:Hy; [|contradiction Nb; reflexivity].
  destruct (lru_find (eq_pair L w) (a, b) (c_or L w)) as [[e t]|] eqn:F.
  - injection H as <- <-. split; [|split; [exact (ext_refl w)|exact (hit_ok w orb _ a b e t x y (i_or w I) F Hx Hy)]].
    pose proof (memo_hit w orb _ _ e t (i_or w I) F) as M. destruct I. split; try assumption; exact M.
  - match type of H with (let (_, _) := ?X in _) = _ => destruct X as [w1 r1] eqn:R end. injection H as <- <-.
    assert (K : inv w1 /\ ext w w1 /\ res_ok orb w1 a b r1).
    { destruct (is_true (o_all L x)) eqn:Tx.
      { injection R as <- <-. split; [exact I|]. split; [exact (ext_refl w)|]. exists x, y, x. split; [exact Hx|]. split; [exact Hy|]. split; [exact Hx|].
        intros s Ds. pose proof (proj1 (i_obj w I a x Hx) (is_true_eq _ Tx) s) as E. rewrite (proj2 E Ds). reflexivity. }
      destruct (is_true (o_all L y)) eqn:Ty.
      { injection R as <- <-. split; [exact I|]. split; [exact (ext_refl w)|]. exists x, y, y. split; [exact Hx|]. split; [exact Hy|]. split; [exact Hy|].
        intros s Ds. pose proof (proj1 (i_obj w I b y Hy) (is_true_eq _ Ty) s) as E. rewrite (proj2 E Ds). destruct (acc (o_fsm L x) s); reflexivity. }
      destruct (get_make _ _ _ _ R) as (G & X & _ & _ & _).
      split; [|split; [exact X|]].
      - apply (inv_make _ _ _ _ I R). split; [|split].
        + cbn [o_all]. destruct (has_finite L T_UNKNOWN _); discriminate.
        + cbn [o_comp]. discriminate.
        + intros Fu. cbn [o_fsm o_all o_text]. destruct (i_obj w I a x Hx) as (_ & _ & Ox). destruct (i_obj w I b y Hy) as (_ & _ & Oy).
          destruct (Ox Fu) as (Ox1 & _ & Ox3). destruct (Oy Fu) as (Oy1 & _ & Oy3). split; [|split].
          * intros s. rewrite (or_ok L HL). intros Hs. apply orb_true_iff in Hs. destruct Hs as [Hs|Hs]; [exact (Ox1 s Hs)|exact (Oy1 s Hs)].
          * destruct (has_finite L T_UNKNOWN _) eqn:HF; [|discriminate]. intros _. destruct (has_finite_size _ _ HF) as (n & Sn). exact (finite_not_all _ n Sn).
          * intros Rd. specialize (Ox3 Rd). specialize (Oy3 Rd). unfold or_text. destruct (String.eqb (o_text L x) (o_text L y)) eqn:Et.
            -- apply String.eqb_eq in Et. apply (says_ext _ _ Ox3). intros s. rewrite (or_ok L HL), orb_true_iff. rewrite <- Et in Oy3.
               pose proof (Htext Rd _ _ _ Ox3 Oy3 s) as Q. cbn beta in Q. clear - Q. tauto.
            -- apply (says_or _ _ _ _ _ Ox3 Oy3). intros s. rewrite (or_ok L HL). apply orb_true_iff.
      - destruct (X _ _ Hx) as (x' & Hx' & Ex). destruct (X _ _ Hy) as (y' & Hy' & Ey). exists x', y'. eexists. split; [exact Hx'|]. split; [exact Hy'|].
        split; [exact G|]. intros s _. cbn [o_fsm]. rewrite Ex, Ey. apply (or_ok L HL). }
    destruct K as (I1 & X & R1). split; [|split; [exact X|exact R1]].
    pose proof (memo_add w1 orb _ a b r1 (i_or w1 I1) R1) as M. destruct I1. split; try assumption; exact M.
Qed.

Lemma and_step : forall w a b w' r, inv w -> dfa_and L w a b = Some (w', r) -> get L w a <> None -> get L w b <> None -> inv w' /\ ext w w' /\ res_ok andb w' a b r.
Proof.
  intros w a b w' r I H Na Nb. unfold dfa_and in H.
  destruct (get L w a) as [x|] eqn:Hx; [|contradiction Na; reflexivity]. destruct (get L w b) as [y|] eqn:Hy; [|contradiction Nb; reflexivity].
  destruct (lru_find (eq_pair L w) (a, b) (c_and L w)) as [[e t]|] eqn:F.
  - injection H as <- <-. split; [|split; [exact (ext_refl w)|exact (hit_ok w andb _ a b e t x y (i_and w I) F Hx Hy)]].
    pose proof (memo_hit w andb _ _ e t (i_and w I) F) as M. destruct I. split; try assumption; exact M.
  - match type of H with (let (_, _) := ?X in _) = _ => destruct X as [w1 r1] eqn:R end. injection H as <- <-.
    assert (K : inv w1 /\ ext w w1 /\ res_ok andb w1 a b r1).
    { destruct (is_true (o_all L x)) eqn:Tx.
      { injection R as <- <-. split; [exact I|]. split; [exact (ext_refl w)|]. exists x, y, y. split; [exact Hx|]. split; [exact Hy|]. split; [exact Hy|].
        intros s Ds. pose proof (proj1 (i_obj w I a x Hx) (is_true_eq _ Tx) s) as E. rewrite (proj2 E Ds). reflexivity. }
      destruct (is_true (o_all L y)) eqn:Ty.
      { injection R as <- <-. split; [exact I|]. split; [exact (ext_refl w)|]. exists x, y, x. split; [exact Hx|]. split; [exact Hy|]. split; [exact Hx|].
        intros s Ds. pose proof (proj1 (i_obj w I b y Hy) (is_true_eq _ Ty) s) as E. rewrite (proj2 E Ds). destruct (acc (o_fsm L x) s); reflexivity. }
      destruct (get_make _ _ _ _ R) as (G & X & _ & _ & _).
      split; [|split; [exact X|]].
      - apply (inv_make _ _ _ _ I R). split; [|split].
        + cbn [o_all]. destruct (is_false (o_all L x) || is_false (o_all L y)); discriminate.
        + cbn [o_comp]. discriminate.
        + intros Fu. cbn [o_fsm o_all o_text]. destruct (i_obj w I a x Hx) as (_ & _ & Ox). destruct (i_obj w I b y Hy) as (_ & _ & Oy).
          destruct (Ox Fu) as (Ox1 & Ox2 & Ox3). destruct (Oy Fu) as (Oy1 & Oy2 & Oy3). split; [|split].
          * intros s. rewrite (and_ok L HL). intros Hs. apply andb_true_iff in Hs. exact (Ox1 s (proj1 Hs)).
          * destruct (is_false (o_all L x)) eqn:Fx.
            { intros _. destruct (Ox2 (is_false_eq _ Fx)) as (s & Ds & As). exists s. split; [exact Ds|]. rewrite (and_ok L HL), As. reflexivity. }
            destruct (is_false (o_all L y)) eqn:Fy; [|discriminate].
            intros _. destruct (Oy2 (is_false_eq _ Fy)) as (s & Ds & As). exists s. split; [exact Ds|]. rewrite (and_ok L HL), As. apply andb_false_r.
          * intros Rd. specialize (Ox3 Rd). specialize (Oy3 Rd). unfold and_text. destruct (String.eqb (o_text L x) (o_text L y)) eqn:Et.
            -- apply String.eqb_eq in Et. apply (says_ext _ _ Ox3). intros s. rewrite (and_ok L HL), andb_true_iff. rewrite <- Et in Oy3.
               pose proof (Htext Rd _ _ _ Ox3 Oy3 s) as Q. cbn beta in Q. clear - Q. tauto.
            -- apply (says_and _ _ _ _ _ Ox3 Oy3). intros s. rewrite (and_ok L HL). apply andb_true_iff.
      - destruct (X _ _ Hx) as (x' & Hx' & Ex). destruct (X _ _ Hy) as (y' & Hy' & Ey). exists x', y'. eexists. split; [exact Hx'|]. split; [exact Hy'|].
        split; [exact G|]. intros s _. cbn [o_fsm]. rewrite Ex, Ey. apply (and_ok L HL). }
    destruct K as (I1 & X & R1). split; [|split; [exact X|exact R1]].
    pose proof (memo_add w1 andb _ a b r1 (i_and w1 I1) R1) as M. destruct I1. split; try assumption; exact M.
Qed.

Lemma not_empty_word : forall f, is_empty L f = false -> exists x, acc f x = true.
Proof. intros f H. destruct (first_ok L HL f H) as (x & _ & E). exists x. exact E. Qed.

(** The object that [__sub__] makes is right. *)
Lemma sub_obj_ok : forall w a b x y c, inv w -> get L w a = Some x -> get L w b = Some y -> (forall k, c = Some k -> k = b /\ o_all L x = T_TRUE) ->
  forall w', ext w w' -> obj_ok w' (mkobj L (f_sub L (o_fsm L x) (o_fsm L y)) (sub_flag L x y (f_sub L (o_fsm L x) (o_fsm L y))) c (sub_text (o_text L x) (o_text L y))).
Proof.
  intros w a b x y c I Hx Hy Hc w' X. destruct (i_obj w I a x Hx) as (Ox & _ & OxF). destruct (i_obj w I b y Hy) as (Oy & _ & OyF). split; [|split].
  - cbn [o_all o_fsm]. unfold sub_flag. intros H s. rewrite (sub_ok L HL).
    assert (T : o_all L x = T_TRUE /\ is_empty L (o_fsm L y) = true).
    { clear - H. destruct (has_finite L _ _) in H; [discriminate|]. destruct (is_true (o_all L x)) eqn:Tx; destruct (is_empty L (o_fsm L y)) eqn:Ey;
        cbn [andb negb] in H; [split; [exact (is_true_eq _ Tx)|reflexivity]| | | ]; destruct (is_true (o_all L y)); discriminate. }
    destruct T as [T E]. rewrite (proj1 (empty_ok L HL _) E s). cbn [negb]. rewrite andb_true_r. exact (Ox T s).
  - cbn [o_comp o_fsm]. intros k Ek. destruct (Hc k Ek) as [-> T]. destruct (X _ _ Hy) as (y' & Hy' & Ey). exists y'. split; [exact Hy'|].
    intros s Ds. rewrite Ey, (sub_ok L HL), (proj2 (Ox T s) Ds). cbn [andb]. rewrite negb_involutive. reflexivity.
  - intros Fu. cbn [o_fsm o_all o_text]. destruct (OxF Fu) as (Ox1 & Ox2 & Ox3). destruct (OyF Fu) as (Oy1 & Oy2 & Oy3). split; [|split].
    + intros s. rewrite (sub_ok L HL). intros Hs. apply andb_true_iff in Hs. exact (Ox1 s (proj1 Hs)).
    + intros H. unfold sub_flag in H. destruct (has_finite L _ _) eqn:HF in H.
      { destruct (has_finite_size _ _ HF) as (n & Sn). exact (finite_not_all _ n Sn). }
      assert (T : o_all L y = T_TRUE \/ is_empty L (o_fsm L y) = false).
      { clear - H. destruct (is_true (o_all L x) && is_empty L (o_fsm L y)); [discriminate|].
        destruct (is_true (o_all L y)) eqn:Ty; [left; exact (is_true_eq _ Ty)|]. destruct (is_empty L (o_fsm L y)); [discriminate|right; reflexivity]. }
      destruct T as [T|T].
      * destruct d_word as (s & Ds). exists s. split; [exact Ds|]. rewrite (sub_ok L HL), (proj2 (Oy T s) Ds). apply andb_false_r.
      * destruct (not_empty_word _ T) as (s & As). exists s. split; [exact (Oy1 s As)|]. rewrite (sub_ok L HL), As. apply andb_false_r.
    + intros Rd. apply (says_sub _ _ _ _ _ (Ox3 Rd) (Oy3 Rd)). intros s. rewrite (sub_ok L HL), andb_true_iff, negb_true_iff, <- not_true_iff_false. reflexivity.
Qed.

Lemma sub_step : forall w a b w' r, inv w -> dfa_sub L w a b = Some (w', r) -> get L w a <> None -> get L w b <> None -> inv w' /\ ext w w' /\ res_ok minus w' a b r.
Proof.
  intros w a b w' r I H Na Nb. unfold dfa_sub in H.
  destruct (get L w a) as [x|] eqn:Hx; [|contradiction Na; reflexivity]. destruct (get L w b) as [y|] eqn:Hy; [|contradiction Nb; reflexivity].
  destruct (lru_find (eq_pair L w) (a, b) (c_sub L w)) as [[e t]|] eqn:F.
  - injection H as <- <-. split; [|split; [exact (ext_refl w)|exact (hit_ok w minus _ a b e t x y (i_sub w I) F Hx Hy)]].
    pose proof (memo_hit w minus _ _ e t (i_sub w I) F) as M. destruct I. split; try assumption; exact M.
  - match type of H with (let (_, _) := ?X in _) = _ => destruct X as [w1 r1] eqn:R end. injection H as <- <-.
    assert (K : inv w1 /\ ext w w1 /\ res_ok minus w1 a b r1).
    { assert (Fresh : forall c w0 r0, (forall k, c = Some k -> k = b /\ o_all L x = T_TRUE) ->
        make L w (mkobj L (f_sub L (o_fsm L x) (o_fsm L y)) (sub_flag L x y (f_sub L (o_fsm L x) (o_fsm L y))) c (sub_text (o_text L x) (o_text L y))) = (w0, r0) ->
        inv w0 /\ ext w w0 /\ (exists z, get L w0 r0 = Some z /\ o_fsm L z = f_sub L (o_fsm L x) (o_fsm L y)) /\ res_ok minus w0 a b r0).
      { intros c w0 r0 Hc M. destruct (get_make _ _ _ _ M) as (G & X & _ & _ & _). split; [|split; [exact X|split]].
        - exact (inv_make _ _ _ _ I M (sub_obj_ok w a b x y c I Hx Hy Hc w0 X)).
        - eexists. split; [exact G|reflexivity].
        - destruct (X _ _ Hx) as (x' & Hx' & Ex). destruct (X _ _ Hy) as (y' & Hy' & Ey). exists x', y'. eexists. split; [exact Hx'|]. split; [exact Hy'|].
          split; [exact G|]. intros s _. cbn [o_fsm]. rewrite Ex, Ey. apply (sub_ok L HL). }
      destruct (is_true (o_all L x)) eqn:Tx.
      - pose proof (is_true_eq _ Tx) as T. pose proof (proj1 (i_obj w I a x Hx) T) as DX.
        destruct (o_comp L y) as [c|] eqn:Cy.
        + injection R as <- <-. split; [exact I|]. split; [exact (ext_refl w)|].
          destruct (i_obj w I b y Hy) as (_ & OC & _). destruct (OC c Cy) as (z & Hz & E). exists x, y, z.
          split; [exact Hx|]. split; [exact Hy|]. split; [exact Hz|]. intros s Ds. rewrite (E s Ds). unfold minus. rewrite (proj2 (DX s) Ds). reflexivity.
        + match type of R with (let (_, _) := ?X in _) = _ => destruct X as [w0 r0] eqn:M end. injection R as <- <-.
          destruct (Fresh (Some b) w0 r0) as (I0 & X & (z & Hz & Ez) & RS); [intros k Ek; injection Ek as <-; split; [reflexivity|exact T]|exact M|].
          assert (E1 : forall o, o_fsm L (set_comp L r0 o) = o_fsm L o) by reflexivity.
          pose proof (change_ext w0 b (set_comp L r0) E1) as X2.
          split; [|split; [exact (ext_trans _ _ _ X X2)|exact (res_ok_ext _ _ _ _ _ _ X2 RS)]].
          apply (inv_change w0 b _ I0 E1). intros o Ho. apply (obj_ok_ext w0 _ _ X2). destruct (i_obj w0 I0 b o Ho) as (A & B & C).
          split; [exact A|]. split; [|exact C]. cbn [set_comp o_comp o_fsm]. intros k Ek. injection Ek as <-. exists z. split; [exact Hz|].
          intros s Ds. destruct (X _ _ Hy) as (y' & Hy' & Ey). rewrite Ho in Hy'. injection Hy' as <-. rewrite Ez, Ey, (sub_ok L HL), (proj2 (DX s) Ds). reflexivity.
      - match type of R with (let (_, _) := ?X in _) = _ => destruct X as [w0 r0] eqn:M end. injection R as <- <-.
        destruct (Fresh None w0 r0) as (I0 & X & _ & RS); [discriminate|exact M|]. split; [exact I0|]. split; [exact X|exact RS]. }
    destruct K as (I1 & X & R1). split; [|split; [exact X|exact R1]].
    pose proof (memo_add w1 minus _ a b r1 (i_sub w1 I1) R1) as M. destruct I1. split; try assumption; exact M.
Qed.

(** ** Texts *)
Lemma skipn_nth : forall (ws : list string) k s, nth_error ws k = Some s -> skipn k ws = s :: skipn (S k) ws.
Proof.
  induction ws as [|w ws IH]; intros k s H; [destruct k; discriminate|]. destruct k as [|k]; [injection H as ->; reflexivity|]. exact (IH k s H).
Qed.
Lemma fold_nth : forall f ws n k, (forall i, i < k + n -> nth_string L f i = nth_error ws i) -> k + n <= List.length ws ->
  fold_right (fun i acc => match nth_string L f i, acc with Some s, Some l => Some (s :: l) | _, _ => None end) (Some []) (seq k n) = Some (firstn n (skipn k ws)).
Proof.
  intros f ws. induction n as [|n IH]; intros k H Hl; [reflexivity|]. cbn [seq fold_right].
  rewrite (IH (S k)); [|intros i Hi; apply H; lia|lia]. rewrite (H k) by lia.
  destruct (nth_error ws k) as [s|] eqn:E; [|apply nth_error_None in E; lia].
  rewrite (skipn_nth ws k s E). reflexivity.
Qed.
Lemma strings_text_ok : forall f n, size L f = Some n -> exists ws, strings_text L f n = Some (join ", " ws) /\ NoDup ws /\ forall x, acc f x = true <-> In x ws.
Proof.
  intros f n H. destruct (size_some L HL f n H) as (ws & Len & N & E & W). exists ws. split; [|split; [exact N|exact W]].
  unfold strings_text. rewrite (fold_nth f ws n 0); [|exact E|lia]. cbn [option_map skipn]. rewrite <- Len, firstn_all. reflexivity.
Qed.

Definition tell_ok (w : world) (a : nat) (t : string) : Prop := full -> rd -> exists o, get L w a = Some o /\ str_tells t (fun x => acc (o_fsm L o) x = true).
Lemma str_step : forall w a w' t, inv w -> dfa_str L w a = Some (w', t) -> get L w a <> None -> inv w' /\ ext w w' /\ tell_ok w' a t.
Proof.
  intros w a w' t I H Na. unfold dfa_str in H. destruct (get L w a) as [x|] eqn:Hx; [|contradiction Na; reflexivity].
  destruct (lru_find (eq_dfa L w) a (c_str L w)) as [[e r]|] eqn:F.
  - injection H as <- <-. destruct (lru_find_in _ _ _ _ _ _ _ F) as (Hin & Ek & Sub). destruct e as [k v]. cbn [fst snd] in *. split; [|split].
    + destruct I. split; try assumption. intros Fu Rd a0 t0 [E|H0]; [injection E as <- <-; exact (i_str0 Fu Rd _ _ Hin)|exact (i_str0 Fu Rd _ _ (Sub _ H0))].
    + exact (ext_refl w).
    + intros Fu Rd. destruct (i_str w I Fu Rd k v Hin) as (o & Ho & S). exists x. split; [exact Hx|]. apply (str_tells_ext _ _ _ S).
      intros s. cbn beta. rewrite (eq_dfa_acc w a k x o Ek Hx Ho s). reflexivity.
  - match type of H with match ?X with _ => _ end = _ => destruct X as [t0|] eqn:T; [|discriminate] end. injection H as <- <-.
    assert (K : tell_ok w a t0).
    { intros Fu Rd. exists x. split; [exact Hx|]. destruct (i_obj w I a x Hx) as (O1 & _ & O3). destruct (O3 Fu) as (_ & _ & S). specialize (S Rd).
      destruct (has_finite L (o_all L x) (o_fsm L x)) eqn:HF.
      - destruct (has_finite_size _ _ HF) as (n & Sn). rewrite Sn in T. destruct (strings_text_ok _ n Sn) as (ws & Ew & N & W). rewrite Ew in T. injection T as <-.
        left. exists ws. split; [reflexivity|]. split; [exact N|exact W].
      - right. unfold has_finite in HF. destruct (is_true (o_all L x)) eqn:Tx.
        + injection T as <-. pose proof (O1 (is_true_eq _ Tx)) as E. split; [|apply says_all; exact E].
          intros l. destruct (Hinf l) as (s & Ds & Ns). exists s. split; [apply E; exact Ds|exact Ns].
        + injection T as <-. split; [|exact S]. destruct (size L (o_fsm L x)) as [n|] eqn:Sn; [discriminate|]. exact (size_none L HL _ Sn). }
    split; [|split; [exact (ext_refl w)|exact K]]. destruct I. split; try assumption.
    intros Fu Rd a0 t1 H0. cbn [with_str c_str] in H0. destruct (lru_add_in _ _ _ _ _ _ H0) as [E|H1]; [|exact (i_str0 Fu Rd _ _ H1)].
    injection E as -> ->. exact (K Fu Rd).
Qed.
Lemma rep_step : forall w a w' r, inv w -> dfa_rep L w a = Some (w', r) -> get L w a <> None -> inv w' /\ ext w w' /\
  exists o, get L w' a = Some o /\ match r with None => forall x, acc (o_fsm L o) x = false | Some s => acc (o_fsm L o) s = true end.
Proof.
  intros w a w' r I H Na. unfold dfa_rep in H. destruct (get L w a) as [x|] eqn:Hx; [|contradiction Na; reflexivity].
  destruct (lru_find (eq_dfa L w) a (c_rep L w)) as [[e t]|] eqn:F.
  - injection H as <- <-. destruct (lru_find_in _ _ _ _ _ _ _ F) as (Hin & Ek & Sub). destruct e as [k v]. cbn [fst snd] in *. split; [|split].
    + destruct I. split; try assumption. intros a0 t0 [E|H0]; [injection E as <- <-; exact (i_rep0 _ _ Hin)|exact (i_rep0 _ _ (Sub _ H0))].
    + exact (ext_refl w).
    + destruct (i_rep w I k v Hin) as (o & Ho & S). exists x. split; [exact Hx|]. destruct v as [s|].
      * rewrite (eq_dfa_acc w a k x o Ek Hx Ho s). exact S.
      * intros s. rewrite (eq_dfa_acc w a k x o Ek Hx Ho s). exact (S s).
  - assert (K : forall r0, match r0 with None => forall s, acc (o_fsm L x) s = false | Some s => acc (o_fsm L x) s = true end ->
        inv (with_rep L w (lru_add a r0 (c_rep L w)))).
    { intros r0 Hr. destruct I. split; try assumption. intros a0 t1 H0. cbn [with_rep c_rep] in H0. destruct (lru_add_in _ _ _ _ _ _ H0) as [E|H1]; [|exact (i_rep0 _ _ H1)].
      injection E as -> ->. exists x. split; [exact Hx|exact Hr]. }
    destruct (is_empty L (o_fsm L x)) eqn:Em.
    + injection H as <- <-. pose proof (proj1 (empty_ok L HL _) Em) as E. split; [exact (K None E)|]. split; [exact (ext_refl w)|]. exists x. split; [exact Hx|exact E].
    + destruct (first_ok L HL _ Em) as (s & Es & As). rewrite Es in H. injection H as <- <-. split; [exact (K (Some s) As)|]. split; [exact (ext_refl w)|].
      exists x. split; [exact Hx|exact As].
Qed.

(** What the text of values says. *)
Definition tells (t : string) (A : string -> Prop) : Prop :=
  (exists ws, t = join ", " ws /\ NoDup ws /\ forall x, A x <-> In x ws) \/
  (t = "*" /\ forall x, A x <-> D x) \/
  (exists ws, ws <> [] /\ t = ("all but " ++ join ", " ws)%string /\ NoDup ws /\ (forall x, A x <-> D x /\ ~ In x ws) /\ forall x, In x ws -> D x) \/
  ((forall l, exists x, A x /\ ~ In x l) /\ says t A).

(** The automaton of the domain is the only one, up to [__eq__], that accepts the words of the domain. *)
Definition canonical_domain : Prop := forall f g, (forall x, acc f x = true <-> D x) -> (forall x, acc g x = true <-> D x) -> same L f g = true.

Lemma size_finite : forall f ws, (forall x, acc f x = true -> In x ws) -> exists n, size L f = Some n.
Proof.
  intros f ws H. destruct (size L f) as [n|] eqn:S; [exists n; reflexivity|]. destruct (size_none L HL f S ws) as (x & Ax & N). destruct (N (H x Ax)).
Qed.

Lemma is_all_ok : forall w a d o x, inv w -> full -> canonical_domain -> get L w a = Some o -> get L w d = Some x -> (forall s, acc (o_fsm L x) s = true <-> D s) ->
  forall r, is_all L w a d = Some r -> (r = true <-> forall s, acc (o_fsm L o) s = true <-> D s).
Proof.
  intros w a d o x I Fu Can Ha Hd HD r H. unfold is_all in H. rewrite Ha, Hd in H. injection H as <-.
  destruct (i_obj w I a o Ha) as (O1 & _ & O3). destruct (O3 Fu) as (_ & O2 & _).
  destruct (o_all L o) eqn:T; cbn [is_true is_false].
  - split; [discriminate|]. intros E. destruct (O2 eq_refl) as (s & Ds & As). rewrite (proj2 (E s) Ds) in As. discriminate.
  - split; [intros _; exact (O1 eq_refl)|reflexivity].
  - split.
    + intros H. apply andb_true_iff in H. intros s. rewrite (same_ok L HL _ _ (proj2 H) s). apply HD.
    + intros E. rewrite (Can _ _ E HD), andb_true_r. unfold has_finite. cbn [is_true]. destruct (size L (o_fsm L o)) as [n|] eqn:S; [|reflexivity].
      destruct (finite_not_all _ n S) as (s & Ds & As). rewrite (proj2 (E s) Ds) in As. discriminate.
Qed.
Lemma is_all_some : forall w a d o x, get L w a = Some o -> get L w d = Some x -> exists r, is_all L w a d = Some r.
Proof. intros w a d o x Ha Hd. unfold is_all. rewrite Ha, Hd. eexists. reflexivity. Qed.

Lemma values_step : forall w d a w' t x, inv w -> values_str L w d a = Some (w', t) -> get L w a <> None -> get L w d = Some x -> o_all L x = T_TRUE ->
  inv w' /\ ext w w' /\ (full -> rd -> canonical_domain -> exists o, get L w' a = Some o /\ tells t (fun s => acc (o_fsm L o) s = true)).
Proof.
  intros w d a w' t x I H Na Hd Td. unfold values_str in H. destruct (get L w a) as [o|] eqn:Ha; [|contradiction Na; reflexivity].
  pose proof (proj1 (i_obj w I d x Hd) Td) as HD.
  destruct (is_all_some w a d o x Ha Hd) as (r & Er). rewrite Er in H.
  destruct (has_finite L (o_all L o) (o_fsm L o)) eqn:HF.
  { assert (Na' : get L w a <> None) by (rewrite Ha; discriminate). destruct (str_step w a w' t I H Na') as (I' & X & T). split; [exact I'|]. split; [exact X|].
    intros Fu Rd _. destruct (T Fu Rd) as (o' & Ho' & S). exists o'. split; [exact Ho'|]. destruct S as [S|[Inf _]]; [left; exact S|].
    destruct (X _ _ Ha) as (o2 & Ho2 & E). rewrite Ho' in Ho2. injection Ho2 as <-. rewrite E in Inf.
    destruct (has_finite_size _ _ HF) as (n & Sn). destruct (size_some L HL _ n Sn) as (ws & _ & _ & _ & W). destruct (Inf ws) as (s & As & Ns). destruct Ns. apply W. exact As. }
  destruct r.
  { injection H as <- <-. split; [exact I|]. split; [exact (ext_refl w)|]. intros Fu _ Can. exists o. split; [exact Ha|]. right. left. split; [reflexivity|].
    exact (proj1 (is_all_ok w a d o x I Fu Can Ha Hd HD true Er) eq_refl). }
  match type of H with match ?X with _ => _ end = _ => destruct X as [[w1 c]|] eqn:C; [|discriminate] end.
  assert (Cok : inv w1 /\ ext w w1 /\ exists y, get L w1 c = Some y /\ forall s, D s -> acc (o_fsm L y) s = negb (acc (o_fsm L o) s)).
  { destruct (o_comp L o) as [c0|] eqn:Co.
    - injection C as <- <-. split; [exact I|]. split; [exact (ext_refl w)|]. exact (proj1 (proj2 (i_obj w I a o Ha)) c0 Co).
    - destruct (sub_step w d a w1 c I C) as (I1 & X & x' & o' & y & Hx' & Ho' & Hy & E); [rewrite Hd; discriminate|rewrite Ha; discriminate|].
      split; [exact I1|]. split; [exact X|]. exists y. split; [exact Hy|]. intros s Ds. rewrite (E s Ds).
      destruct (X _ _ Hd) as (x2 & Hx2 & Ex). rewrite Hx' in Hx2. injection Hx2 as <-. destruct (X _ _ Ha) as (o2 & Ho2 & Eo). rewrite Ho' in Ho2. injection Ho2 as <-.
      rewrite Ex, Eo. unfold minus. rewrite (proj2 (HD s) Ds). reflexivity. }
  destruct Cok as (I1 & X1 & y & Hy & Ey). unfold finite_len in H. rewrite Hy in H. cbn [option_map] in H.
  destruct (X1 _ _ Ha) as (o1 & Ho1 & Eo1).
  destruct (has_finite L (o_all L y) (o_fsm L y)) eqn:HFy.
  - destruct (dfa_str L w1 c) as [[w2 t2]|] eqn:S; [|discriminate]. injection H as <- <-.
    destruct (str_step w1 c w2 t2 I1 S) as (I2 & X2 & T2); [rewrite Hy; discriminate|]. split; [exact I2|]. split; [exact (ext_trans _ _ _ X1 X2)|].
    intros Fu Rd Can. destruct (X2 _ _ Ho1) as (o2 & Ho2 & Eo2). exists o2. split; [exact Ho2|]. rewrite Eo2, Eo1.
    destruct (T2 Fu Rd) as (y2 & Hy2 & TS). destruct (X2 _ _ Hy) as (y2' & Hy2' & Ey2). rewrite Hy2 in Hy2'. injection Hy2' as <-. rewrite Ey2 in TS.
    destruct (proj2 (proj2 (i_obj w1 I1 c y Hy)) Fu) as (YD & _ & _). destruct (proj2 (proj2 (i_obj w I a o Ha)) Fu) as (OD & _ & _).
    destruct (has_finite_size _ _ HFy) as (n & Sn). destruct (size_some L HL _ n Sn) as (vs & _ & _ & _ & V).
    destruct TS as [(ws & Et & N & W)|[Inf _]]; [|destruct (Inf vs) as (s & As & Ns); destruct Ns; apply V; exact As].
    right. right. left. exists ws. split; [|split; [|split; [exact N|split]]].
    + intros ->. pose proof (is_all_ok w a d o x I Fu Can Ha Hd HD false Er) as Q. assert (K : false = true); [|discriminate K]. apply Q. intros s. split; [apply OD|].
      intros Ds. destruct (acc (o_fsm L o) s) eqn:As; [reflexivity|]. pose proof (Ey s Ds) as E. rewrite As in E. destruct (proj1 (W s) E).
    + rewrite Et. reflexivity.
    + intros s. split.
      * intros As. split; [exact (OD s As)|]. intros Ins. pose proof (Ey s (OD s As)) as E. rewrite As in E. rewrite (proj2 (W s) Ins) in E. discriminate.
      * intros [Ds Ns]. destruct (acc (o_fsm L o) s) eqn:As; [reflexivity|]. destruct Ns. apply W. rewrite (Ey s Ds), As. reflexivity.
    + intros s Ins. apply YD. apply W. exact Ins.
  - destruct (str_step w1 a w' t I1 H) as (I2 & X2 & T2); [rewrite Ho1; discriminate|]. split; [exact I2|]. split; [exact (ext_trans _ _ _ X1 X2)|].
    intros Fu Rd Can. destruct (T2 Fu Rd) as (o2 & Ho2 & TS). exists o2. split; [exact Ho2|]. destruct TS as [TS|TS]; [left; exact TS|right; right; right; exact TS].
Qed.

(** ** Histories *)
Definition call_ok (w : world) (c : call) : Prop :=
  match c with
  | CRegex s => allowed s
  | CAll s | CPath s => s = dre
  | COr a b | CAnd a b | CSub a b => get L w a <> None /\ get L w b <> None
  | CStr a | CRep a => get L w a <> None
  | CValues d a => get L w a <> None /\ exists x, get L w d = Some x /\ o_all L x = T_TRUE
  end.
Inductive reached : world -> Prop :=
  | reached_start : reached (start L)
  | reached_step : forall w c w', reached w -> call_ok w c -> step L w c = Some w' -> reached w'.

Lemma inv_start : inv (start L).
Proof.
  assert (M : forall op, memo (start L) op []) by (intros op a b r []).
  split; try exact (M _).
  - intros a o H. destruct a; discriminate.
  - intros s a [].
  - intros _ _ a t [].
  - intros a r [].
Qed.
Lemma step_ok : forall w c w', inv w -> call_ok w c -> step L w c = Some w' -> inv w' /\ ext w w'.
Proof.
  intros w c w' I K H. destruct c as [s|s|s|a b|a b|a b|a|a|d a]; cbn [step] in H; cbn [call_ok] in K; apply option_map_fst in H; destruct H as [r H].
  - destruct (from_regex_ok w s w' r I (or_introl K) H) as (A & B & _). split; [exact A|exact B].
  - subst s. unfold all_words in H. destruct (from_regex L w dre) as [[w1 a]|] eqn:F; [|discriminate]. injection H as <- <-.
    destruct (domain_ok w w1 a (fun o => set_text L "*" (set_all L T_TRUE o)) I F) as (A & B & _); try reflexivity; [right; reflexivity|]. split; [exact A|exact B].
  - subst s. unfold path_words in H. destruct (from_regex L w dre) as [[w1 a]|] eqn:F; [|discriminate]. injection H as <- <-.
    destruct (domain_ok w w1 a (set_all L T_TRUE) I F) as (A & B & _); try reflexivity; [left; reflexivity|]. split; [exact A|exact B].
  - destruct (or_step w a b w' r I H (proj1 K) (proj2 K)) as (A & B & _). split; [exact A|exact B].
  - destruct (and_step w a b w' r I H (proj1 K) (proj2 K)) as (A & B & _). split; [exact A|exact B].
  - destruct (sub_step w a b w' r I H (proj1 K) (proj2 K)) as (A & B & _). split; [exact A|exact B].
  - destruct (str_step w a w' r I H K) as (A & B & _). split; [exact A|exact B].
  - destruct (rep_step w a w' r I H K) as (A & B & _). split; [exact A|exact B].
  - destruct K as (K & x & Hx & Tx). destruct (values_step w d a w' r x I H K Hx Tx) as (A & B & _). split; [exact A|exact B].
Qed.
Lemma reached_inv : forall w, reached w -> inv w.
Proof. intros w R. induction R as [|w c w' R IH K H]; [exact inv_start|]. exact (proj1 (step_ok w c w' IH K H)). Qed.
End Facts.
