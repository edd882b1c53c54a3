(** * What Calico label selectors mean, and that CalicoSelectorModel.v computes it. *)
From Coq Require Import ZArith List Bool Arith Lia String Ascii.
From Verif Require Import IntervalModel TextModel PortProtoModel PeerModel PeerFacts PeerSetFacts PolicyModel YamlModel ClusterModel
                          K8sParserModel SelectorFacts PropSelectors CalicoSelectorModel.
Import ListNotations.
Local Open Scope char_scope.
Local Open Scope list_scope.
Local Open Scope nat_scope.

(** ** Expressions (https://docs.tigera.io/calico/latest/reference/resources/networkpolicy#selectors) *)
Inductive atom :=
| AAll | AGlobal | AHas (k : string) | AEq (k v : string) | ANeq (k v : string)
| AIn (k : string) (vs : list string) | ANotIn (k : string) (vs : list string)
| AContains (k v : string) | AStarts (k v : string) | AEnds (k v : string).
Inductive sexpr := EAtom (a : atom) | ENot (e : sexpr) | EAnd (e f : sexpr) | EOr (e f : sexpr).

(** [has k v]: the object carries label k with value v. *)
Definition sat_atom (has : string -> string -> Prop) (a : atom) : Prop :=
  match a with
  | AAll => True
  | AGlobal => False
  | AHas k => exists v, has k v
  | AEq k v => has k v
  | ANeq k v => ~ has k v
  | AIn k vs => exists v, In v vs /\ has k v
  | ANotIn k vs => ~ exists v, In v vs /\ has k v
  | AContains k w => exists a b, has k (a ++ w ++ b)%string
  | AStarts k w => exists b, has k (w ++ b)%string
  | AEnds k w => exists a, has k (a ++ w)%string
  end.
Fixpoint sat (has : string -> string -> Prop) (e : sexpr) : Prop :=
  match e with
  | EAtom a => sat_atom has a
  | ENot e => ~ sat has e
  | EAnd e f => sat has e /\ sat has f
  | EOr e f => sat has e \/ sat has f
  end.
Fixpoint mentions_global (e : sexpr) : bool :=
  match e with
  | EAtom AGlobal => true
  | EAtom _ => false
  | ENot e => mentions_global e
  | EAnd e f | EOr e f => mentions_global e || mentions_global f
  end.
(** A namespace selector at an object that is in no namespace: it satisfies only what asks for global() somewhere. *)
Fixpoint gsat (e : sexpr) : Prop :=
  match e with
  | EAtom AGlobal => True
  | EAtom _ => False
  | ENot e => mentions_global e = true /\ ~ gsat e
  | EAnd e f => gsat e /\ gsat f
  | EOr e f => gsat e \/ gsat f
  end.

(** ** Their texts *)
Definition blanks (w : list ascii) : Prop := Forall (fun c => is_space c = true) w.
Definition gap (w : list ascii) : Prop := w <> [] /\ blanks w.
Definition word (s : string) : Prop := s <> ""%string /\ Forall (fun c => key_char c = true) (text s).
Definition quote (v : string) : list ascii := "'" :: text v ++ ["'"].

Section Text.
Context (W G : list ascii -> Prop).      (* optional and mandatory white space *)
Inductive vals_text : list ascii -> list string -> Prop :=
| vt_one : forall w1 w2 v, W w1 -> W w2 -> word v -> vals_text (w1 ++ quote v ++ w2) [v]
| vt_more : forall w1 w2 v t vs, W w1 -> W w2 -> word v -> vals_text t vs ->
    vals_text (w1 ++ quote v ++ w2 ++ "," :: t) (v :: vs).
Inductive atom_text : list ascii -> atom -> Prop :=
| at_all : atom_text (text "all()") AAll
| at_global : atom_text (text "global()") AGlobal
| at_has : forall k, word k -> atom_text (text "has(" ++ text k ++ [")"]) (AHas k)
| at_eq : forall k v w1 w2, word k -> word v -> W w1 -> W w2 -> atom_text (text k ++ w1 ++ text "==" ++ w2 ++ quote v) (AEq k v)
| at_neq : forall k v w1 w2, word k -> word v -> W w1 -> W w2 -> atom_text (text k ++ w1 ++ text "!=" ++ w2 ++ quote v) (ANeq k v)
| at_in : forall k vs w1 w2 t, word k -> G w1 -> W w2 -> vals_text t vs ->
    atom_text (text k ++ w1 ++ text "in" ++ w2 ++ "{" :: t ++ ["}"]) (AIn k vs)
| at_not_in : forall k vs w1 w2 w3 t, word k -> G w1 -> G w2 -> W w3 -> vals_text t vs ->
    atom_text (text k ++ w1 ++ text "not" ++ w2 ++ text "in" ++ w3 ++ "{" :: t ++ ["}"]) (ANotIn k vs)
| at_contains : forall k v w1 w2, word k -> word v -> G w1 -> W w2 ->
    atom_text (text k ++ w1 ++ text "contains" ++ w2 ++ quote v) (AContains k v)
| at_starts : forall k v w1 w2 w3, word k -> word v -> G w1 -> G w2 -> W w3 ->
    atom_text (text k ++ w1 ++ text "starts" ++ w2 ++ text "with" ++ w3 ++ quote v) (AStarts k v)
| at_ends : forall k v w1 w2 w3, word k -> word v -> G w1 -> G w2 -> W w3 ->
    atom_text (text k ++ w1 ++ text "ends" ++ w2 ++ text "with" ++ w3 ++ quote v) (AEnds k v).
End Text.

(** ! binds stronger than &&, which binds stronger than ||. *)
Inductive level := LOr | LAnd | LUn.
Inductive gram : level -> list ascii -> sexpr -> Prop :=
| g_or1 : forall s e, gram LAnd s e -> gram LOr s e
| g_or : forall s e t f, gram LAnd s e -> gram LOr t f -> gram LOr (s ++ "|" :: "|" :: t) (EOr e f)
| g_and1 : forall s e, gram LUn s e -> gram LAnd s e
| g_and : forall s e t f, gram LUn s e -> gram LAnd t f -> gram LAnd (s ++ "&" :: "&" :: t) (EAnd e f)
| g_not : forall w s e, blanks w -> gram LUn s e -> gram LUn (w ++ "!" :: s) (ENot e)
| g_par : forall w1 w2 s e, blanks w1 -> blanks w2 -> gram LOr s e -> gram LUn (w1 ++ "(" :: s ++ ")" :: w2) e
| g_atom : forall w1 w2 s a, blanks w1 -> blanks w2 -> atom_text blanks gap s a -> gram LUn (w1 ++ s ++ w2) (EAtom a).
(** The text of a selector. *)
Definition denotes (s : string) (e : sexpr) : Prop := gram LOr (text s) e.

(** ** White space *)
Definition solid (l : list ascii) : Prop := Forall (fun c => is_space c = false) l.
Definition hd_solid (l : list ascii) : Prop := match l with c :: _ => is_space c = false | [] => False end.
Definition tl_solid (l : list ascii) : Prop := exists t c, l = t ++ [c] /\ is_space c = false.
Definition tight (l : list ascii) : Prop := hd_solid l /\ tl_solid l.

Lemma key_solid : forall c, key_char c = true -> is_space c = false.
Proof. intros [[] [] [] [] [] [] [] []] H; try reflexivity; discriminate H. Qed.
Lemma word_solid : forall k, word k -> text k <> [] /\ solid (text k).
Proof.
  intros k [N F]. split.
  - destruct k; [congruence|discriminate].
  - eapply Forall_impl; [|exact F]. intros c. apply key_solid.
Qed.
Lemma lstrip_blanks : forall w l, blanks w -> lstrip (w ++ l) = lstrip l.
Proof. induction 1 as [|c w H _ IH]; auto. cbn [app lstrip]. rewrite H. auto. Qed.
Lemma lstrip_solid : forall l, hd_solid l -> lstrip l = l.
Proof. intros [|c l] H; [destruct H|]. cbn [hd_solid lstrip] in *. rewrite H. reflexivity. Qed.
Lemma blanks_rev : forall w, blanks w -> blanks (rev w).
Proof. intros w H. apply Forall_rev. auto. Qed.
Lemma strip_tight : forall w1 l w2, blanks w1 -> blanks w2 -> tight l -> strip (w1 ++ l ++ w2) = l.
Proof.
  intros w1 l w2 H1 H2 [Hh (t & c & E & Hc)]. unfold strip. rewrite lstrip_blanks by auto.
  rewrite (lstrip_solid (l ++ w2)) by (destruct l; [destruct Hh|exact Hh]).
  rewrite rev_app_distr, lstrip_blanks by (apply blanks_rev; auto). rewrite lstrip_solid; [apply rev_involutive|].
  rewrite E, rev_app_distr. exact Hc.
Qed.

Lemma words_solid : forall p cur l, solid p -> words cur (p ++ l) = words (rev p ++ cur) l.
Proof.
  induction p as [|c p IH]; intros cur l H; auto. inversion H; subst. cbn [app words]. rewrite H2, IH by auto.
  cbn [rev]. rewrite <- app_assoc. reflexivity.
Qed.
Lemma words_blanks : forall w l, blanks w -> words [] (w ++ l) = words [] l.
Proof. induction 1 as [|c w H _ IH]; auto. cbn [app words]. rewrite H. auto. Qed.
Lemma words_ne : forall cur l, cur <> [] -> words cur l <> [].
Proof.
  intros cur l; revert cur; induction l as [|c l IH]; intros cur N; cbn [words].
  - destruct cur; congruence.
  - destruct (is_space c); [destruct cur; [congruence|discriminate]|]. apply IH. discriminate.
Qed.
Lemma words_hd : forall l, hd_solid l -> exists x r, forall cur, words (cur) l = (rev cur ++ x) :: r /\ x <> [].
Proof.
  intros l. induction l as [|c l IH]; [intros []|]. intros H. cbn [hd_solid] in H.
  destruct l as [|d l].
  - exists [c], []. intros cur. cbn [words]. rewrite H. cbn [rev app]. split; [|discriminate].
    reflexivity.
  - destruct (is_space d) eqn:Ed.
    + exists [c], (words [] l). intros cur. cbn [words]. rewrite H, Ed. cbn [rev]. split; [reflexivity|discriminate].
    + destruct (IH Ed) as (x & r & Hx). exists (c :: x), r. intros cur. cbn [words]. rewrite H.
      destruct (Hx (c :: cur)) as [E _]. cbn [words] in E. rewrite E. cbn [rev]. rewrite <- app_assoc. split; [reflexivity|discriminate].
Qed.
Definition sq (w : list ascii) : list ascii := match w with [] => [] | _ => [" "] end.
Lemma squeeze_step : forall p w t, p <> [] -> solid p -> blanks w -> hd_solid t -> squeeze (p ++ w ++ t) = p ++ sq w ++ squeeze t.
Proof.
  intros p w t N S B H. unfold squeeze. rewrite words_solid by auto. rewrite app_nil_r.
  destruct (words_hd t H) as (x & r & Hx). destruct w as [|c w].
  - cbn [app sq]. destruct (Hx (rev p)) as [E Nx]. rewrite E, rev_involutive.
    destruct (Hx []) as [E0 _]. rewrite E0. cbn [rev app]. destruct r; cbn [joinl]; rewrite <- ?app_assoc; reflexivity.
  - inversion B; subst. cbn [app words sq]. rewrite H2.
    assert (Nr : rev p <> []) by (intros X; apply N; rewrite <- (rev_involutive p), X; reflexivity).
    destruct (rev p) as [|a b] eqn:Er; [congruence|]. rewrite <- Er, rev_involutive, words_blanks by auto.
    destruct (Hx []) as [E0 _]. rewrite E0. cbn [rev app joinl]. reflexivity.
Qed.
Lemma squeeze_solid : forall p, p <> [] -> solid p -> squeeze p = p.
Proof.
  intros p N S. unfold squeeze. rewrite <- (app_nil_r p) at 1. rewrite words_solid by auto. rewrite app_nil_r. cbn [words].
  assert (Nr : rev p <> []) by (intros X; apply N; rewrite <- (rev_involutive p), X; reflexivity).
  destruct (rev p) eqn:Er; [congruence|]. rewrite <- Er, rev_involutive. reflexivity.
Qed.
(** Single blanks. *)
Definition W1 (w : list ascii) : Prop := w = [] \/ w = [" "].
Definition G1 (w : list ascii) : Prop := w = [" "].
Lemma sq_W : forall w, W1 (sq w).
Proof. intros [|c w]; [left|right]; reflexivity. Qed.
Lemma sq_G : forall w, gap w -> G1 (sq w).
Proof. intros [|c w] [N _]; [congruence|reflexivity]. Qed.
Lemma quote_solid : forall v, word v -> quote v <> [] /\ solid (quote v).
Proof.
  intros v Hv. split; [discriminate|]. constructor; [reflexivity|]. apply Forall_app. split; [apply word_solid; auto|].
  constructor; [reflexivity|constructor].
Qed.
Lemma hd_quote : forall v t, hd_solid (quote v ++ t).
Proof. reflexivity. Qed.

Lemma squeeze_vals : forall t vs, vals_text blanks t vs -> forall p, p <> [] -> solid p ->
  exists t', squeeze (p ++ t ++ ["}"]) = p ++ t' ++ ["}"] /\ vals_text W1 t' vs.
Proof.
  induction 1 as [w1 w2 v H1 H2 Hv|w1 w2 v t vs H1 H2 Hv Ht IH]; intros p N S; destruct (quote_solid v Hv) as [Qn Qs].
  - exists (sq w1 ++ quote v ++ sq w2). split; [|apply vt_one; auto; apply sq_W].
    rewrite <- !app_assoc. rewrite (squeeze_step p w1) by (auto; reflexivity).
    rewrite (squeeze_step (quote v) w2 ["}"]) by (auto; reflexivity). reflexivity.
  - destruct (IH [","]) as (t' & E & V); [discriminate|constructor; [reflexivity|constructor]|].
    exists (sq w1 ++ quote v ++ sq w2 ++ "," :: t'). split; [|apply vt_more; auto; apply sq_W].
    rewrite <- !app_assoc. rewrite (squeeze_step p w1) by (auto; reflexivity).
    rewrite (squeeze_step (quote v) w2) by (auto; reflexivity).
    change (squeeze ((("," :: t) ++ ["}"]))) with (squeeze ([","] ++ t ++ ["}"])). rewrite E.
    rewrite <- ?app_assoc. reflexivity.
Qed.
Lemma hd_text : forall k t, word k -> hd_solid (text k ++ t).
Proof. intros k t H. destruct (word_solid k H) as [N S]. destruct (text k); [congruence|]. inversion S; auto. Qed.
Ltac solid := repeat constructor.
Lemma squeeze_atom : forall l a, atom_text blanks gap l a -> atom_text W1 G1 (squeeze l) a.
Proof.
  intros l a H. destruct H as [| |k Hk|k v w1 w2 Hk Hv H1 H2|k v w1 w2 Hk Hv H1 H2|k vs w1 w2 t Hk H1 H2 Ht|k vs w1 w2 w3 t Hk H1 H2 H3 Ht
    |k v w1 w2 Hk Hv H1 H2|k v w1 w2 w3 Hk Hv H1 H2 H3|k v w1 w2 w3 Hk Hv H1 H2 H3].
  - rewrite squeeze_solid; [constructor|discriminate|solid].
  - rewrite squeeze_solid; [constructor|discriminate|solid].
  - rewrite squeeze_solid; [constructor; auto|discriminate|]. apply Forall_app. split; [solid|]. apply Forall_app. split; [apply word_solid; auto|solid].
  - destruct (word_solid k Hk), (quote_solid v Hv). rewrite squeeze_step by (auto; reflexivity).
    rewrite (squeeze_step (text "==")) by (auto; try discriminate; try solid; reflexivity).
    rewrite squeeze_solid by auto. apply at_eq; auto; apply sq_W.
  - destruct (word_solid k Hk), (quote_solid v Hv). rewrite squeeze_step by (auto; reflexivity).
    rewrite (squeeze_step (text "!=")) by (auto; try discriminate; try solid; reflexivity).
    rewrite squeeze_solid by auto. apply at_neq; auto; apply sq_W.
  - destruct (word_solid k Hk). rewrite squeeze_step; auto; [|apply H1|reflexivity].
    rewrite (squeeze_step (text "in")); auto; [|discriminate|solid|reflexivity].
    destruct (squeeze_vals t vs Ht ["{"]) as (t' & E & V); [discriminate|solid|].
    change ("{" :: t ++ ["}"]) with (["{"] ++ t ++ ["}"]). rewrite E. apply at_in; auto; [apply sq_G; auto|apply sq_W].
  - destruct (word_solid k Hk). rewrite squeeze_step; auto; [|apply H1|reflexivity].
    rewrite (squeeze_step (text "not")); auto; [|discriminate|solid|apply H2|reflexivity].
    rewrite (squeeze_step (text "in")); auto; [|discriminate|solid|reflexivity].
    destruct (squeeze_vals t vs Ht ["{"]) as (t' & E & V); [discriminate|solid|].
    change ("{" :: t ++ ["}"]) with (["{"] ++ t ++ ["}"]). rewrite E. apply at_not_in; auto; [apply sq_G; auto|apply sq_G; auto|apply sq_W].
  - destruct (word_solid k Hk), (quote_solid v Hv). rewrite squeeze_step; auto; [|apply H1|reflexivity].
    rewrite (squeeze_step (text "contains")); auto; [|discriminate|solid|reflexivity].
    rewrite squeeze_solid by auto. apply at_contains; auto; [apply sq_G; auto|apply sq_W].
  - destruct (word_solid k Hk), (quote_solid v Hv). rewrite squeeze_step; auto; [|apply H1|reflexivity].
    rewrite (squeeze_step (text "starts")); auto; [|discriminate|solid|apply H2|reflexivity].
    rewrite (squeeze_step (text "with")); auto; [|discriminate|solid|reflexivity].
    rewrite squeeze_solid by auto. apply at_starts; auto; [apply sq_G; auto|apply sq_G; auto|apply sq_W].
  - destruct (word_solid k Hk), (quote_solid v Hv). rewrite squeeze_step; auto; [|apply H1|reflexivity].
    rewrite (squeeze_step (text "ends")); auto; [|discriminate|solid|apply H2|reflexivity].
    rewrite (squeeze_step (text "with")); auto; [|discriminate|solid|reflexivity].
    rewrite squeeze_solid by auto. apply at_ends; auto; [apply sq_G; auto|apply sq_G; auto|apply sq_W].
Qed.

(** ** Recognising atoms *)
Definition nk (r : list ascii) : Prop := match r with c :: _ => key_char c = false | [] => True end.
Lemma untext_text : forall s, untext (text s) = s.
Proof. induction s as [|c s IH]; [reflexivity|]. unfold text in *. cbn [chars untext]. rewrite IH. reflexivity. Qed.
Lemma span_app : forall k r, Forall (fun c => key_char c = true) k -> nk r -> span (k ++ r) = (k, r).
Proof.
  intros k r H N. induction H as [|c k Hc _ IH].
  - destruct r as [|c r]; auto. cbn in *. rewrite N. reflexivity.
  - cbn [app span]. rewrite Hc, IH. reflexivity.
Qed.
Lemma osp_W : forall w r, W1 w -> match r with c :: _ => c <> " " | [] => True end -> osp (w ++ r) = r.
Proof.
  intros w r [->| ->] H; [|reflexivity]. destruct r as [|c r]; auto. cbn [app osp].
  destruct (Ascii.eqb_spec c " "); congruence.
Qed.
Lemma quoted_ok : forall v r, word v -> quoted (quote v ++ r) = Some (text v, r).
Proof.
  intros v r [N F]. unfold quoted, quote. cbn [app lit]. rewrite Ascii.eqb_refl. cbn [bind].
  rewrite <- app_assoc. rewrite span_app; [|auto|reflexivity]. destruct (text v) as [|c t] eqn:E.
  - destruct v; [congruence|discriminate].
  - cbn [app lit]. rewrite Ascii.eqb_refl. reflexivity.
Qed.
Lemma with_key_ok : forall X k r (f : list ascii -> list ascii -> option X) x, word k -> nk r -> f (text k) r = Some x ->
  with_key (text k ++ r) f = Some x.
Proof.
  intros X k r f x [N F] Hr E. unfold with_key. rewrite span_app by auto.
  destruct (List.length (text k)) eqn:El.
  - destruct k; [congruence|discriminate].
  - cbn [prefixes]. rewrite <- El, firstn_all, skipn_all. cbn [app]. rewrite E. reflexivity.
Qed.
Lemma with_key_none : forall X k r (f : list ascii -> list ascii -> option X), word k -> nk r -> f (text k) r = None ->
  (forall a c b, key_char c = true -> f a (c :: b) = None) -> with_key (text k ++ r) f = None.
Proof.
  intros X k r f [N F] Hr E H. unfold with_key. rewrite span_app by auto.
  assert (G : forall n, n <= List.length (text k) -> prefixes (text k) n r f = None); [|apply G; auto].
  induction n as [|n IH]; intros Hn; auto. cbn [prefixes]. rewrite IH by lia.
  destruct (Nat.eq_dec (S n) (List.length (text k))) as [En|En].
  - rewrite En, firstn_all, skipn_all. cbn [app]. rewrite E. reflexivity.
  - destruct (skipn (S n) (text k)) as [|c t] eqn:Es.
    + exfalso. assert (L : List.length (skipn (S n) (text k)) = 0) by (rewrite Es; reflexivity). rewrite skipn_length in L. lia.
    + cbn [app]. rewrite H; auto. rewrite Forall_forall in F. apply F.
      rewrite <- (firstn_skipn (S n) (text k)). apply in_or_app. right. rewrite Es. left; auto.
Qed.
Lemma has_none : forall k c r, word k -> key_char c = false -> c <> "(" -> has_re (text k ++ c :: r) = None.
Proof.
  intros k c r [N F] Hc Np. unfold has_re.
  assert (E : lit (text "has(") (text k ++ c :: r) = None); [|rewrite E; reflexivity].
  assert (K : forall d, key_char d = true -> Ascii.eqb d c = false).
  { intros d Hd. destruct (Ascii.eqb_spec d c); congruence. }
  cbn [text chars].
  destruct (text k) as [|a1 t]; [cbn [app lit]; rewrite K; reflexivity|]. inversion F as [|? ? A1 F1]; subst. cbn [app lit].
  destruct (Ascii.eqb_spec "h" a1); auto.
  destruct t as [|a2 t]; [cbn [app]; rewrite K; reflexivity|]. inversion F1 as [|? ? A2 F2]; subst. cbn [app].
  destruct (Ascii.eqb_spec "a" a2); auto.
  destruct t as [|a3 t]; [cbn [app]; rewrite K; reflexivity|]. inversion F2 as [|? ? A3 F3]; subst. cbn [app].
  destruct (Ascii.eqb_spec "s" a3); auto.
  destruct t as [|a4 t]; cbn [app].
  - destruct (Ascii.eqb_spec "(" c); congruence.
  - inversion F3 as [|? ? A4 F4]; subst. destruct (Ascii.eqb_spec "(" a4); auto. subst a4. discriminate A4.
Qed.

Lemma vals_ok : forall t vs, vals_text W1 t vs -> exists v r, quoted (osp (t ++ ["}"])) = Some (v, r) /\
  List.length r <= List.length (t ++ ["}"]) /\ forall f, List.length r < f -> more_values f (osp r) = Some tt.
Proof.
  induction 1 as [w1 w2 v H1 H2 Hv|w1 w2 v t vs H1 H2 Hv Ht IH].
  - exists (text v), (w2 ++ ["}"]). rewrite <- !app_assoc. rewrite osp_W by (auto; discriminate). rewrite quoted_ok by auto.
    split; [reflexivity|]. rewrite !app_length. split; [lia|]. intros f Hf. rewrite osp_W by (auto; discriminate).
    destruct f; [lia|]. reflexivity.
  - destruct IH as (v1 & r & Q & L & M).
    exists (text v), (w2 ++ "," :: t ++ ["}"]). rewrite <- !app_assoc. rewrite osp_W by (auto; discriminate).
    rewrite <- app_comm_cons. rewrite quoted_ok by auto. split; [reflexivity|]. rewrite !app_length in *. cbn [List.length] in *. rewrite app_length in *. cbn [List.length] in *.
    split; [lia|]. intros f Hf. rewrite osp_W by (auto; discriminate). destruct f; [lia|]. cbn [more_values].
    rewrite Ascii.eqb_refl. change (Ascii.eqb "," "}") with false. cbv iota. rewrite Q. cbn [bind snd]. apply M. lia.
Qed.

Lemma span_len : forall l, List.length (fst (span l)) + List.length (snd (span l)) = List.length l.
Proof.
  induction l as [|c l IH]; auto. cbn [span]. destruct (key_char c); auto. destruct (span l) as [a b]. cbn [fst snd List.length] in *. lia.
Qed.
Lemma fv_mono : forall f g l, List.length l < f -> List.length l < g -> find_values f l = find_values g l.
Proof.
  induction f as [|f IH]; intros g l Hf Hg; [lia|]. destruct g as [|g]; [lia|]. cbn [find_values].
  destruct l as [|c t]; auto. cbn [List.length] in *. destruct (Ascii.eqb c "'").
  - pose proof (span_len t) as L. destruct (span t) as [v r]. cbn [fst snd] in L. cbn [lit]. destruct r as [|d r].
    + apply IH; lia.
    + cbn [List.length] in L. destruct (Ascii.eqb "'" d); [f_equal|]; apply IH; lia.
  - apply IH; lia.
Qed.
Definition values_in (l : list ascii) : list (list ascii) := find_values (S (List.length l)) l.
Lemma values_skip : forall p r, ~ In "'" p -> values_in (p ++ r) = values_in r.
Proof.
  induction p as [|c p IH]; intros r H; auto. unfold values_in in *. cbn [app List.length]. cbn [find_values].
  destruct (Ascii.eqb_spec c "'") as [->|]; [destruct H; left; auto|].
  change (find_values (S (List.length (p ++ r))) (p ++ r) = find_values (S (List.length r)) r).
  apply IH. intros X; apply H; right; auto.
Qed.
Lemma values_quote : forall v r, word v -> values_in (quote v ++ r) = text v :: values_in r.
Proof.
  intros v r [N F]. unfold values_in, quote. cbn [app]. cbn [List.length].
  assert (Q : forall f t, find_values (S f) ("'" :: t) =
            let (u, s) := span t in match lit ["'"] s with Some r' => u :: find_values f r' | None => find_values f t end) by reflexivity.
  rewrite Q. rewrite <- app_assoc. rewrite span_app; [|auto|reflexivity]. cbn [app lit]. rewrite Ascii.eqb_refl. f_equal.
  apply fv_mono; rewrite ?app_length; cbn [List.length]; rewrite ?app_length; lia.
Qed.
Lemma blank_noq : forall w, W1 w -> ~ In "'" w.
Proof. intros w [->| ->]; cbn; intuition congruence. Qed.
Lemma word_noq : forall k, word k -> ~ In "'" (text k).
Proof. intros k [_ F] H. rewrite Forall_forall in F. apply F in H. discriminate H. Qed.
Lemma values_vals : forall t vs r, vals_text W1 t vs -> ~ In "'" r -> values_in (t ++ r) = map text vs.
Proof.
  intros t vs r H N. assert (E : values_in r = []) by (rewrite <- (app_nil_r r), values_skip by auto; reflexivity).
  induction H as [w1 w2 v H1 H2 Hv|w1 w2 v t vs H1 H2 Hv Ht IH].
  - rewrite <- !app_assoc. rewrite values_skip by (apply blank_noq; auto). rewrite values_quote by auto.
    rewrite values_skip by (apply blank_noq; auto). rewrite E. reflexivity.
  - rewrite <- !app_assoc. rewrite values_skip by (apply blank_noq; auto). rewrite values_quote by auto.
    rewrite values_skip by (apply blank_noq; auto).
    change (("," :: t) ++ r) with ([","] ++ t ++ r). rewrite values_skip by (cbn; intuition congruence). rewrite IH. reflexivity.
Qed.

(** Texts that start with a key and a character that is neither in a key nor a bracket. *)
Lemma not_literal : forall k c r w, ~ In c w -> text k ++ c :: r <> w.
Proof. intros k c r w N E. apply N. rewrite <- E. apply in_or_app. right. left. auto. Qed.
Lemma keyval_none : forall k c r, word k -> key_char c = false -> c <> "=" -> c <> "!" ->
  (c = " " -> match r with d :: _ => d <> "=" /\ d <> "!" | [] => True end) ->
  key_val_re (text k ++ c :: r) = None.
Proof.
  intros k c r Hk Hc N1 N2 H. unfold key_val_re. apply with_key_none; auto.
  - unfold osp. destruct (Ascii.eqb_spec c " ") as [->|].
    + specialize (H eq_refl). destruct r as [|d r]; auto. destruct H as [D1 D2].
      destruct (Ascii.eqb_spec d "="), (Ascii.eqb_spec d "!"); try congruence; reflexivity.
    + destruct (Ascii.eqb_spec c "="), (Ascii.eqb_spec c "!"); try congruence; reflexivity.
  - intros a d b Hd. unfold osp. destruct (Ascii.eqb_spec d " ") as [->|]; [discriminate Hd|].
    destruct (Ascii.eqb_spec d "=") as [->|]; [discriminate Hd|]. destruct (Ascii.eqb_spec d "!") as [->|]; [discriminate Hd|]. reflexivity.
Qed.
Definition recognised (e : list ascii) (a : atom) : Prop :=
  match a with
  | AAll => e = text "all()"
  | AGlobal => e = text "global()"
  | _ =>
    e <> text "all()" /\ e <> text "global()" /\
    match a with
    | AHas k => has_re e = Some (text k)
    | AEq k v => has_re e = None /\ key_val_re e = Some (text k, true, text v)
    | ANeq k v => has_re e = None /\ key_val_re e = Some (text k, false, text v)
    | AIn k vs => has_re e = None /\ key_val_re e = None /\ in_re e = Some (text k, true) /\ values_in e = map text vs
    | ANotIn k vs => has_re e = None /\ key_val_re e = None /\ in_re e = Some (text k, false) /\ values_in e = map text vs
    | AContains k v => has_re e = None /\ key_val_re e = None /\ in_re e = None /\ str_re e = Some (text k, FContain, text v)
    | AStarts k v => has_re e = None /\ key_val_re e = None /\ in_re e = None /\ str_re e = Some (text k, FStartWith, text v)
    | AEnds k v => has_re e = None /\ key_val_re e = None /\ in_re e = None /\ str_re e = Some (text k, FEndWith, text v)
    | _ => True
    end
  end.
Lemma in_none : forall k c r, word k -> (c = "c" \/ c = "s" \/ c = "e") -> in_re (text k ++ " " :: c :: r) = None.
Proof.
  intros k c r Hk Hc. unfold in_re. apply with_key_none; auto; [reflexivity| |].
  - destruct Hc as [->|[->| ->]]; reflexivity.
  - intros a d b Hd. cbn [lit]. destruct (Ascii.eqb_spec " " d) as [<-|]; [discriminate Hd|reflexivity].
Qed.
Lemma nin : forall c l, existsb (Ascii.eqb c) l = false -> ~ In c l.
Proof.
  intros c l H X. assert (E : existsb (Ascii.eqb c) l = true) by (apply existsb_exists; exists c; split; [auto|apply Ascii.eqb_refl]).
  congruence.
Qed.
Lemma atom_recognised : forall e a, atom_text W1 G1 e a -> recognised e a.
Proof.
  intros l a H. destruct H as [| |k Hk|k v w1 w2 Hk Hv H1 H2|k v w1 w2 Hk Hv H1 H2|k vs w1 w2 t Hk H1 H2 Ht|k vs w1 w2 w3 t Hk H1 H2 H3 Ht
    |k v w1 w2 Hk Hv H1 H2|k v w1 w2 w3 Hk Hv H1 H2 H3|k v w1 w2 w3 Hk Hv H1 H2 H3]; cbn [recognised]; auto.
  - split; [discriminate|]. split; [discriminate|]. unfold has_re. cbn. rewrite span_app; [|apply Hk|reflexivity].
    destruct (word_solid k Hk) as [N _]. destruct (text k); [congruence|reflexivity].
  - assert (S : exists c r, w1 ++ text "==" ++ w2 ++ quote v = c :: r /\ (c = " " \/ c = "=")).
    { destruct H1 as [->| ->]; cbn; eauto. }
    destruct S as (c & r & S & Hc). rewrite S.
    assert (Kc : key_char c = false) by (destruct Hc as [->| ->]; reflexivity).
    split; [apply not_literal, nin; destruct Hc as [->| ->]; reflexivity|].
    split; [apply not_literal, nin; destruct Hc as [->| ->]; reflexivity|].
    split; [apply has_none; auto; destruct Hc as [->| ->]; discriminate|].
    rewrite <- S. unfold key_val_re. apply with_key_ok; auto; [rewrite S; auto|].
    rewrite osp_W by (auto; discriminate). cbn [text chars app]. rewrite Ascii.eqb_refl. cbn [orb lit bind].
    rewrite Ascii.eqb_refl. cbn [bind]. rewrite osp_W by (auto; discriminate).
    rewrite <- (app_nil_r (quote v)), quoted_ok by auto. reflexivity.
  - assert (S : exists c r, w1 ++ text "!=" ++ w2 ++ quote v = c :: r /\ (c = " " \/ c = "!")).
    { destruct H1 as [->| ->]; cbn; eauto. }
    destruct S as (c & r & S & Hc). rewrite S.
    assert (Kc : key_char c = false) by (destruct Hc as [->| ->]; reflexivity).
    split; [apply not_literal, nin; destruct Hc as [->| ->]; reflexivity|].
    split; [apply not_literal, nin; destruct Hc as [->| ->]; reflexivity|].
    split; [apply has_none; auto; destruct Hc as [->| ->]; discriminate|].
    rewrite <- S. unfold key_val_re. apply with_key_ok; auto; [rewrite S; auto|].
    rewrite osp_W by (auto; discriminate). cbn [text chars app]. change (Ascii.eqb "!" "=") with false. rewrite Ascii.eqb_refl. cbn [orb lit bind].
    rewrite Ascii.eqb_refl. cbn [bind]. rewrite osp_W by (auto; discriminate).
    rewrite <- (app_nil_r (quote v)), quoted_ok by auto. reflexivity.
  - unfold G1 in H1. subst w1. cbn [app text chars].
    split; [apply not_literal, nin; reflexivity|]. split; [apply not_literal, nin; reflexivity|].
    split; [apply has_none; auto; discriminate|].
    split; [apply keyval_none; auto; try discriminate; intros _; split; discriminate|].
    destruct (vals_ok t vs Ht) as (v1 & r & Q & L & M).
    split.
    + unfold in_re. apply with_key_ok; auto; [reflexivity|]. cbn [lit bind text chars]. rewrite Ascii.eqb_refl. cbn [bind].
      change (Ascii.eqb "n" "i") with false. cbv iota. cbn [bind]. rewrite !Ascii.eqb_refl. cbn [bind].
      rewrite osp_W by (auto; discriminate). rewrite Ascii.eqb_refl. cbn [bind]. rewrite Q. cbn [bind snd]. rewrite M by lia. reflexivity.
    + rewrite values_skip by (apply word_noq; auto).
      change (" " :: "i" :: "n" :: w2 ++ "{" :: t ++ ["}"]) with ([" "; "i"; "n"] ++ w2 ++ ["{"] ++ t ++ ["}"]).
      rewrite values_skip by (apply nin; reflexivity). rewrite values_skip by (apply blank_noq; auto).
      rewrite values_skip by (apply nin; reflexivity). apply values_vals; auto. apply nin; reflexivity.
  - unfold G1 in H1, H2. subst w1 w2. cbn [app text chars].
    split; [apply not_literal, nin; reflexivity|]. split; [apply not_literal, nin; reflexivity|].
    split; [apply has_none; auto; discriminate|].
    split; [apply keyval_none; auto; try discriminate; intros _; split; discriminate|].
    destruct (vals_ok t vs Ht) as (v1 & r & Q & L & M).
    split.
    + unfold in_re. apply with_key_ok; auto; [reflexivity|]. cbn [lit bind text chars]. repeat (rewrite Ascii.eqb_refl; cbn [bind]).
      rewrite osp_W by (auto; discriminate). repeat (rewrite Ascii.eqb_refl; cbn [bind]).
      rewrite Q. cbn [bind snd]. rewrite M by lia. reflexivity.
    + rewrite values_skip by (apply word_noq; auto).
      change (" " :: "n" :: "o" :: "t" :: " " :: "i" :: "n" :: w3 ++ "{" :: t ++ ["}"])
        with ([" "; "n"; "o"; "t"; " "; "i"; "n"] ++ w3 ++ ["{"] ++ t ++ ["}"]).
      rewrite values_skip by (apply nin; reflexivity). rewrite values_skip by (apply blank_noq; auto).
      rewrite values_skip by (apply nin; reflexivity). apply values_vals; auto. apply nin; reflexivity.
  - unfold G1 in H1. subst w1. cbn [app text chars].
    split; [apply not_literal, nin; reflexivity|]. split; [apply not_literal, nin; reflexivity|].
    split; [apply has_none; auto; discriminate|].
    split; [apply keyval_none; auto; try discriminate; intros _; split; discriminate|].
    split; [apply in_none; auto|].
    unfold str_re. apply with_key_ok; auto; [reflexivity|]. cbn [osp]. rewrite Ascii.eqb_refl. cbn [lit text chars]. rewrite !Ascii.eqb_refl.
    cbn [bind]. rewrite osp_W by (auto; discriminate). rewrite <- (app_nil_r (quote v)), quoted_ok by auto. reflexivity.
  - unfold G1 in H1, H2. subst w1 w2. cbn [app text chars].
    split; [apply not_literal, nin; reflexivity|]. split; [apply not_literal, nin; reflexivity|].
    split; [apply has_none; auto; discriminate|].
    split; [apply keyval_none; auto; try discriminate; intros _; split; discriminate|].
    split; [apply in_none; auto|].
    unfold str_re. apply with_key_ok; auto; [reflexivity|]. cbn [osp]. rewrite Ascii.eqb_refl. cbn [lit text chars].
    change (Ascii.eqb "c" "s") with false. cbv iota. cbn [bind]. rewrite !Ascii.eqb_refl.
    cbn [bind]. rewrite osp_W by (auto; discriminate). rewrite <- (app_nil_r (quote v)), quoted_ok by auto. reflexivity.
  - unfold G1 in H1, H2. subst w1 w2. cbn [app text chars].
    split; [apply not_literal, nin; reflexivity|]. split; [apply not_literal, nin; reflexivity|].
    split; [apply has_none; auto; discriminate|].
    split; [apply keyval_none; auto; try discriminate; intros _; split; discriminate|].
    split; [apply in_none; auto|].
    unfold str_re. apply with_key_ok; auto; [reflexivity|]. cbn [osp]. rewrite Ascii.eqb_refl. cbn [lit text chars].
    change (Ascii.eqb "c" "e") with false. change (Ascii.eqb "s" "e") with false. cbv iota. cbn [bind]. rewrite !Ascii.eqb_refl.
    cbn [bind]. rewrite osp_W by (auto; discriminate). rewrite <- (app_nil_r (quote v)), quoted_ok by auto. reflexivity.
Qed.
