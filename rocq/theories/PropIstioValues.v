(** * C40: the values of an Istio authorization policy match what Istio documents.

    https://istio.io/latest/docs/concepts/security/#value-matching: exact match, prefix match ("abc*"), suffix match
    ("*abc") and presence match ("*": any value that is not empty). *)
From Coq Require Import ZArith List Bool Arith Lia String Ascii.
From Verif Require Import TextModel PortProtoModel PeerSetFacts YamlModel ClusterModel SelectorFacts CalicoSelectorModel CalicoSelectorFacts IstioValueModel.
Import ListNotations.
Local Open Scope string_scope.
Local Open Scope list_scope.
Local Open Scope nat_scope.
Local Open Scope char_scope.

(** ** The documented meaning *)
Definition word := list ascii.
Definition legal (v : word) : Prop := ~ In "*" v \/ exists p, ~ In "*" p /\ (v = p ++ ["*"] \/ v = "*" :: p).
Definition value_matches (v w : word) : Prop :=
  (~ In "*" v /\ w = v) \/
  (v = ["*"] /\ w <> []) \/
  (exists p x, p <> [] /\ ~ In "*" p /\ v = p ++ ["*"] /\ w = p ++ x) \/
  (exists p x, p <> [] /\ ~ In "*" p /\ v = "*" :: p /\ w = x ++ p).
Definition over_alphabet (w : word) : Prop := Forall (fun c => alphabet c = true) w.

(** ** Texts *)
Lemma has_star_In : forall l, has_star l = true <-> In "*" l.
Proof.
  intros l. unfold has_star. rewrite existsb_exists. split; [intros (c & H & E); apply Ascii.eqb_eq in E; subst; auto|].
  intros H. exists "*". split; auto.
Qed.
Lemma has_star_false : forall l, has_star l = false <-> ~ In "*" l.
Proof. intros l. rewrite <- has_star_In. destruct (has_star l); split; congruence. Qed.
Lemma count_zero : forall l, count_char "*" l = 0 <-> ~ In "*" l.
Proof.
  induction l as [|c l IH]; cbn [count_char In]; [tauto|]. destruct (Ascii.eqb_spec "*" c) as [<-|N].
  - split; [discriminate|]. intros H. destruct H. auto.
  - cbn. rewrite IH. split; [intros H [E|E]; [congruence|auto]|auto].
Qed.
Lemma count_app : forall c a b, count_char c (a ++ b) = count_char c a + count_char c b.
Proof. intros c a b. induction a as [|d a IH]; cbn [app count_char]; auto. rewrite IH. lia. Qed.
Lemma starts_star_spec : forall l, starts_star l = true <-> exists t, l = "*" :: t.
Proof.
  intros [|c l]; cbn; [split; [discriminate|intros (t & H); discriminate]|]. rewrite Ascii.eqb_eq. split; [intros ->; eauto|intros (t & H); congruence].
Qed.
Lemma ends_star_spec : forall l, ends_star l = true <-> exists t, l = t ++ ["*"].
Proof.
  intros l. unfold ends_star. rewrite starts_star_spec. split; intros (t & H).
  - exists (rev t). rewrite <- (rev_involutive l), H. reflexivity.
  - exists (rev t). rewrite H, rev_app_distr. reflexivity.
Qed.
Lemma pattern_ok_legal : forall l, pattern_ok l = true <-> legal l.
Proof.
  intros l. unfold pattern_ok, legal. destruct (has_star l) eqn:Hs.
  - apply has_star_In in Hs. rewrite andb_true_iff, orb_true_iff, Nat.eqb_eq, starts_star_spec, ends_star_spec. split.
    + intros [C [(t & ->)|(t & ->)]]; right; exists t.
      * cbn in C. split; auto. apply count_zero. lia.
      * rewrite count_app in C. cbn in C. split; auto. apply count_zero. lia.
    + intros [H|(p & Np & [->| ->])]; [tauto|..].
      * rewrite count_app. apply count_zero in Np. rewrite Np. cbn. split; eauto.
      * apply count_zero in Np. cbn. rewrite Np. split; eauto.
  - apply has_star_false in Hs. tauto.
Qed.
Lemma starts_with_spec : forall p l, starts_with p l = true <-> exists x, l = p ++ x.
Proof.
  induction p as [|a p IH]; intros l; cbn [starts_with app]; [split; eauto|]. destruct l as [|b l].
  - split; [discriminate|intros (x & H); discriminate].
  - rewrite andb_true_iff, Ascii.eqb_eq, IH. split; [intros [-> (x & ->)]; eauto|intros (x & H); injection H as -> ->; eauto].
Qed.
Lemma ends_with_spec : forall p l, ends_with p l = true <-> exists x, l = x ++ p.
Proof.
  intros p l. unfold ends_with. rewrite starts_with_spec. split; intros (x & H).
  - exists (rev x). rewrite <- (rev_involutive l), H, rev_app_distr, rev_involutive. reflexivity.
  - exists (rev x). rewrite H, rev_app_distr. reflexivity.
Qed.
Lemma text_inj : forall a b, text a = text b -> a = b.
Proof. intros a b H. rewrite <- (untext_text a), <- (untext_text b), H. reflexivity. Qed.

(** ** Enumerated domains: namespaces, principals and methods *)
(** The syntax error is raised exactly for other patterns; the result holds exactly the matching values. *)
Theorem C40_illegal_pattern : forall v values, enumerated v values = None <-> ~ legal (text v).
Proof.
  intros v values. unfold enumerated. rewrite <- pattern_ok_legal. destruct (pattern_ok (text v)); cbn [negb]; split; try discriminate; auto. tauto.
Qed.
Lemma enumerated_spec : forall v values r, enumerated v values = Some r ->
  forall w, (w = ""%string -> ~ In ""%string values) -> (In w r <-> In w values /\ value_matches (text v) (text w)).
Proof.
  intros v values r E w N. unfold enumerated in E. destruct (pattern_ok (text v)) eqn:P; cbn [negb] in E; [|discriminate]. injection E as <-.
  apply pattern_ok_legal in P. unfold value_matches. destruct (has_star (text v)) eqn:Hs; cbn [negb].
  - apply has_star_In in Hs. destruct (String.eqb_spec v "*") as [->|Nv].
    { split.
      - intros H. split; auto. right; left. split; auto. destruct w; [destruct (N eq_refl H)|discriminate].
      - tauto. }
    assert (Nt : text v <> ["*"]) by (intros H; apply Nv; apply text_inj; auto).
    destruct (starts_star (text v)) eqn:S1.
    + apply starts_star_spec in S1 as (t & Et). rewrite Et in *. cbn [tl]. rewrite filter_In, ends_with_spec.
      assert (Np : ~ In "*" t).
      { destruct P as [P|(p & Np & [E|E])]; [tauto| |injection E as ->; auto]. destruct p as [|c p]; [cbn in E; congruence|]. injection E as <- ->. exfalso. apply Np. left; auto. }
      split.
      * intros [H (x & Ex)]. split; auto. right; right; right. exists t, x. split; auto. intros ->. apply Nt. reflexivity.
      * intros [H [[H1 _]|[[H1 _]|[(p & x & P1 & P2 & P3 & P4)|(p & x & P1 & P2 & P3 & P4)]]]].
        -- destruct H1. left; auto.
        -- destruct (Nt H1).
        -- destruct p as [|c p]; [congruence|]. injection P3 as <- ->. exfalso. apply P2. left; auto.
        -- injection P3 as <-. eauto.
    + destruct P as [P|(p & Np & [E|E])]; [tauto| |rewrite E in S1; discriminate].
      assert (S2 : ends_star (text v) = true) by (apply ends_star_spec; eauto). rewrite S2, E, removelast_last, filter_In, starts_with_spec.
      assert (Pn : p <> []) by (intros ->; apply Nt; auto). split.
      * intros [H (x & Ex)]. split; auto. right; right; left. exists p, x. auto.
      * intros [H [[H1 _]|[[H1 _]|[(p' & x & P1 & P2 & P3 & P4)|(p' & x & P1 & P2 & P3 & P4)]]]].
        -- destruct H1. apply in_or_app. right; left; auto.
        -- destruct Nt. congruence.
        -- apply app_inj_tail in P3 as [-> _]. eauto.
        -- rewrite E, P3 in S1. discriminate.
  - apply has_star_false in Hs.
    assert (M : ~ (text v = ["*"]) /\ (forall p, text v <> p ++ ["*"]) /\ (forall p, text v <> "*" :: p)).
    { split; [|split]; intros; intros H; rewrite H in Hs; apply Hs; [left; auto|apply in_or_app; right; left; auto|left; auto]. }
    destruct M as (M1 & M2 & M3). assert (X : In w (if smem v values then [v] else []) <-> In w values /\ w = v).
    { destruct (smem v values) eqn:Sv; [apply smem_In in Sv|].
      - split; [intros [<-|[]]; auto|intros [_ ->]; left; auto].
      - split; [intros []|intros [H ->]]. apply smem_In in H. congruence. }
    rewrite X. split.
    + intros [H ->]. auto.
    + intros [H [[_ H1]|[[H1 _]|[(p & x & _ & _ & H1 & _)|(p & x & _ & _ & H1 & _)]]]]; [|destruct (M1 H1)|destruct (M2 p H1)|destruct (M3 p H1)].
      split; auto. apply text_inj. auto.
Qed.
Theorem C40_enumerated : forall v values r, enumerated v values = Some r -> ~ In ""%string values ->
  forall w, In w r <-> In w values /\ value_matches (text v) (text w).
Proof. intros v values r E N w. apply (enumerated_spec v values r E). auto. Qed.

(** ** Hosts and paths: the regular expression *)
(** Reading does not depend on the fuel. *)
Lemma class_items_len : forall n l q, List.length l <= n -> class_items l = Some q -> List.length (snd q) < List.length l.
Proof.
  induction n as [|n IH]; intros l q Hn E; (destruct l as [|c t]; [discriminate|]); cbn [List.length] in *; [lia|]. cbn [class_items] in E.
  destruct (Ascii.eqb c "]"); [injection E as <-; cbn; lia|].
  destruct (Ascii.eqb c "\").
  - destruct t as [|d t']; [discriminate|]. cbn [List.length] in *.
    assert (G : forall i, option_map (fun q => (i :: fst q, snd q)) (class_items t') = Some q -> List.length (snd q) < S (S (List.length t'))).
    { intros i Ei. destruct (class_items t') as [q'|] eqn:Eq; [|discriminate]. cbn in Ei. injection Ei as <-. cbn. apply IH in Eq; lia. }
    destruct (Ascii.eqb d "w"); [eauto|]. destruct (Ascii.eqb d "-"); [eauto|discriminate].
  - destruct (existsb _ _); [discriminate|]. destruct (class_items t) as [q'|] eqn:Eq; [|discriminate]. cbn in E. injection E as <-. cbn. apply IH in Eq; lia.
Qed.
Lemma read_atom_len : forall l q, read_atom l = Some q -> List.length (snd q) < List.length l.
Proof.
  intros [|c t] q E; [discriminate|]. cbn [read_atom List.length] in *. destruct (Ascii.eqb c "["); [apply (class_items_len _ _ _ (le_n _)) in E; lia|].
  destruct (special c); [discriminate|]. injection E as <-. cbn. lia.
Qed.
Lemma read_rep_len : forall l, List.length (snd (read_rep l)) <= List.length l.
Proof. intros [|c t]; cbn; [lia|]. destruct (Ascii.eqb c "*"); [cbn; lia|]. destruct (Ascii.eqb c "+"); cbn; lia. Qed.
Lemma read_alts_fuel : forall f l e, read_alts f l = Some e -> forall g, List.length l < g -> read_alts g l = Some e.
Proof.
  induction f as [|f IH]; intros l e E g Hg; [discriminate|]. destruct g as [|g]; [lia|]. cbn [read_alts] in *.
  destruct l as [|c t]; auto. cbn [List.length] in Hg. destruct (Ascii.eqb c "|").
  - destruct (read_alts f t) as [e'|] eqn:E'; [|discriminate]. rewrite (IH t e' E' g) by lia. exact E.
  - destruct (read_atom (c :: t)) as [q|] eqn:Eq; [|discriminate]. cbn [bind] in *. pose proof (read_atom_len _ _ Eq) as L1. pose proof (read_rep_len (snd q)) as L2.
    destruct (read_rep (snd q)) as [r rest]. cbn [snd] in L2. cbn [List.length] in L1. destruct (read_alts f rest) as [e'|] eqn:E'; [|discriminate].
    rewrite (IH rest e' E' g) by lia. exact E.
Qed.
Definition reads (l : word) (e : regex) : Prop := exists f, read_alts f l = Some e.
Lemma reads_regex : forall l e, reads l e <-> read_regex l = Some e.
Proof. intros l e. split; [intros (f & E); unfold read_regex; apply (read_alts_fuel f); auto|intros E; eexists; exact E]. Qed.
(** Steps of reading. *)
Definition not_rep (l : word) : Prop := match l with c :: _ => c <> "*" /\ c <> "+" | [] => True end.
Lemma read_rep_once : forall l, not_rep l -> read_rep l = (Once, l).
Proof. intros [|c t] H; auto. cbn in *. destruct H as [H1 H2]. apply Ascii.eqb_neq in H1, H2. rewrite H1, H2. reflexivity. Qed.
Lemma reads_atom : forall c l q r rest a m, read_atom (c :: l) = Some q -> c <> "|" -> read_rep (snd q) = (r, rest) -> reads rest (a :: m) ->
  reads (c :: l) ((Piece (fst q) r :: a) :: m).
Proof.
  intros c l q r rest a m E N Er (f & Ef). exists (S f). cbn [read_alts]. apply Ascii.eqb_neq in N. rewrite N, E. cbn [bind]. rewrite Er, Ef. reflexivity.
Qed.
Definition alpha_class : list item := [IChar "."; IWord; IChar "/"; IChar "-"].
Lemma in_alpha_class : forall c, in_class alpha_class c <-> alphabet c = true.
Proof.
  intros c. unfold in_class, alphabet, alpha_class. rewrite !orb_true_iff, !Ascii.eqb_eq. cbn [In]. split.
  - intros (i & [<-|[<-|[<-|[<-|[]]]]] & H); cbn in H; tauto.
  - intros [[[->|H]| ->]| ->]; [exists (IChar ".")|exists IWord|exists (IChar "/")|exists (IChar "-")]; cbn; tauto.
Qed.
(** The text of one character of a value, and the piece it is read as. *)
Definition char_text (c : ascii) : word :=
  if Ascii.eqb "*" c then allowed_chars ++ ["*"] else if Ascii.eqb "." c then text "[.]" else [c].
Definition char_piece (c : ascii) : piece := if Ascii.eqb "*" c then Piece alpha_class Star else Piece [IChar c] Once.
Definition value_char (c : ascii) : Prop := c = "*" \/ alphabet c = true.
Lemma alphabet_plain : forall c, alphabet c = true -> c <> "*" /\ c <> "|" /\ c <> "+" /\ (c = "." \/ (Ascii.eqb c "[" = false /\ special c = false)).
Proof.
  intros c H. destruct (Ascii.eqb_spec c ".") as [->|N]; [repeat split; try discriminate; auto|].
  assert (S : special c = false).
  { destruct (special c) eqn:S; auto. exfalso. unfold special in S. apply existsb_exists in S as (d & Hd & E). apply Ascii.eqb_eq in E. subst d.
    cbn in Hd. repeat (destruct Hd as [<-|Hd]; [first [congruence|discriminate H]|]). destruct Hd. }
  assert (G : forall d, special d = true -> c <> d) by (intros d Hd ->; congruence).
  split; [apply G; reflexivity|]. split; [apply G; reflexivity|]. split; [apply G; reflexivity|]. right. split; [|exact S]. apply Ascii.eqb_neq. apply G. reflexivity.
Qed.
Lemma char_text_not_rep : forall c t, value_char c -> not_rep (char_text c ++ t).
Proof.
  intros c t [->|H]; [cbn; split; discriminate|]. destruct (alphabet_plain c H) as (N1 & N2 & N3 & N4). unfold char_text.
  destruct (Ascii.eqb_spec "*" c) as [<-|_]; [tauto|]. destruct (Ascii.eqb_spec "." c) as [<-|_]; [cbn; split; discriminate|]. cbn. auto.
Qed.
Lemma reads_char : forall c rest a m, value_char c -> not_rep rest -> reads rest (a :: m) -> reads (char_text c ++ rest) ((char_piece c :: a) :: m).
Proof.
  intros c rest a m V Nr H. unfold char_piece. destruct V as [->|Ha].
  - change (char_text "*" ++ rest) with ("[" :: "." :: "\" :: "w" :: "/" :: "\" :: "-" :: "]" :: "*" :: rest). cbn [Ascii.eqb].
    apply (reads_atom _ _ (alpha_class, "*" :: rest) Star rest); auto. discriminate.
  - destruct (alphabet_plain c Ha) as (N1 & N2 & N3 & N4). unfold char_text. destruct (Ascii.eqb_spec "*" c) as [<-|_]; [tauto|].
    destruct (Ascii.eqb_spec "." c) as [<-|Nd].
    + change (text "[.]" ++ rest) with ("[" :: "." :: "]" :: rest). apply (reads_atom _ _ ([IChar "."], rest) Once rest); auto; [discriminate|]. apply read_rep_once; auto.
    + destruct N4 as [->|[N4 N5]]; [congruence|]. cbn [app]. apply (reads_atom _ _ ([IChar c], rest) Once rest); auto; [|apply read_rep_once; auto].
      cbn [read_atom]. rewrite N4, N5. reflexivity.
Qed.
Lemma reads_chars : forall l rest a m, Forall value_char l -> not_rep rest -> reads rest (a :: m) -> reads (flat_map char_text l ++ rest) ((map char_piece l ++ a) :: m).
Proof.
  induction l as [|c l IH]; intros rest a m F Nr H; auto. inversion F as [|? ? F1 F2]; subst. cbn [flat_map map]. rewrite <- app_assoc. cbn [app].
  apply reads_char; auto.
  destruct l as [|d l]; auto. cbn [flat_map]. rewrite <- app_assoc. apply char_text_not_rep. inversion F2; auto.
Qed.

(** The regular expression of one value. *)
Definition value_alt (l : word) : list piece := match l with ["*"] => [Piece alpha_class Plus] | _ => map char_piece l end.
Lemma value_alt_other : forall l, l <> ["*"] -> value_alt l = map char_piece l.
Proof.
  intros [|c [|d l]] H; auto; unfold value_alt; destruct c as [[|] [|] [|] [|] [|] [|] [|] [|]]; auto; try congruence.
Qed.
Lemma replace_rev : forall c r l, rev (replace_char c r l) = replace_char c (rev r) (rev l).
Proof.
  intros c r l. unfold replace_char. induction l as [|d l IH]; auto. cbn [flat_map rev]. rewrite rev_app_distr, IH, flat_map_app. cbn [flat_map].
  rewrite app_nil_r. destruct (Ascii.eqb c d); reflexivity.
Qed.
Lemma starts_replace : forall r l, ~ starts_star r = true -> r <> [] -> starts_star (replace_char "." r l) = starts_star l.
Proof.
  intros r [|c l] N Ne; auto. cbn [replace_char flat_map]. destruct (Ascii.eqb_spec "." c) as [<-|_]; auto.
  destruct r as [|d r]; [congruence|]. cbn in *. destruct (Ascii.eqb d "*"); auto. congruence.
Qed.
Lemma dot_replace : forall l, has_star (replace_char "." (text "[.]") l) = has_star l /\ pattern_ok (replace_char "." (text "[.]") l) = pattern_ok l.
Proof.
  intros l. assert (H : has_star (replace_char "." (text "[.]") l) = has_star l).
  { induction l as [|c l IH]; auto. cbn [replace_char flat_map]. unfold has_star in *. rewrite existsb_app. cbn [existsb]. unfold replace_char in IH. rewrite IH.
    destruct (Ascii.eqb_spec "." c) as [<-|_]; auto. cbn [existsb]. rewrite orb_false_r. reflexivity. }
  split; auto. unfold pattern_ok. rewrite H. destruct (has_star l); auto. f_equal; [|f_equal].
  - f_equal. clear. induction l as [|c l IH]; auto. cbn [replace_char flat_map]. unfold replace_char in IH. rewrite count_app, IH. cbn [count_char].
    destruct (Ascii.eqb_spec "." c) as [<-|_]; auto. cbn. destruct (Ascii.eqb "*" c); lia.
  - apply starts_replace; discriminate.
  - unfold ends_star. rewrite replace_rev. apply starts_replace; discriminate.
Qed.
Lemma both_replace : forall l, replace_char "*" (allowed_chars ++ ["*"]) (replace_char "." (text "[.]") l) = flat_map char_text l.
Proof.
  intros l. unfold replace_char. induction l as [|c l IH]; auto. cbn [flat_map]. rewrite flat_map_app, IH. f_equal. unfold char_text.
  destruct (Ascii.eqb_spec "." c) as [<-|N]; [reflexivity|]. cbn [flat_map]. destruct (Ascii.eqb "*" c); cbn; rewrite ?app_nil_r; auto.
Qed.
Lemma one_replace : forall l, ~ In "*" l -> replace_char "." (text "[.]") l = flat_map char_text l.
Proof.
  intros l N. unfold replace_char. induction l as [|c l IH]; auto. cbn [flat_map]. rewrite IH by (intros H; apply N; right; auto). f_equal. unfold char_text.
  destruct (Ascii.eqb_spec "*" c) as [<-|_]; auto. destruct N. left; auto.
Qed.
Lemma value_chars : forall l, forallb (fun c => Ascii.eqb c "*" || alphabet c) l = true <-> Forall value_char l.
Proof.
  intros l. rewrite forallb_forall, Forall_forall. unfold value_char. split; intros H c Hc; specialize (H c Hc); rewrite orb_true_iff, Ascii.eqb_eq in *; auto.
Qed.
(** The shape of the result of _parse_str_value. *)
Lemma str_value_text : forall y t, str_value y = Some t -> exists s, y = YStr s /\ Forall value_char (text s) /\ legal (text s) /\
  t = match text s with ["*"] => allowed_chars ++ ["+"] | l => flat_map char_text l end.
Proof.
  intros y t E. destruct y as [| | | |s| |]; try discriminate. exists s. split; auto. unfold str_value in E.
  destruct (forallb _ (text s)) eqn:F; cbn [negb] in E; [|discriminate]. apply value_chars in F. split; auto. cbv zeta in E.
  destruct (dot_replace (text s)) as [D1 D2]. rewrite D1, D2 in E. destruct (has_star (text s)) eqn:Hs.
  - destruct (pattern_ok (text s)) eqn:P; cbn [negb] in E; [|discriminate]. apply pattern_ok_legal in P. split; auto.
    apply has_star_In in Hs.
    assert (One : (exists c, replace_char "." (text "[.]") (text s) = [c] /\ Ascii.eqb c "*" = true) <-> text s = ["*"]).
    { split; [|intros ->; exists "*"; split; reflexivity]. intros (c & Ec & E1). apply Ascii.eqb_eq in E1. subst c. destruct (text s) as [|d [|d' l]]; [discriminate| |].
      - unfold replace_char in Ec. cbn [flat_map] in Ec. destruct (Ascii.eqb "." d); [discriminate|]. exact Ec.
      - exfalso. unfold replace_char in Ec. cbn [flat_map] in Ec. destruct (Ascii.eqb "." d), (Ascii.eqb "." d'); discriminate. }
    destruct (list_eq_dec ascii_dec (text s) ["*"]) as [Es|Ns].
    + rewrite Es in *. cbn in E. injection E as <-. reflexivity.
    + assert (X : match replace_char "." (text "[.]") (text s) with [c] => Ascii.eqb c "*" | _ => false end = false).
      { destruct (replace_char "." (text "[.]") (text s)) as [|c [|d l]] eqn:Er; auto. destruct (Ascii.eqb c "*") eqn:Ec; auto. exfalso. apply Ns. apply One. exists c. auto. }
      rewrite X in E. clear X.
      assert (SE : starts_star (replace_char "." (text "[.]") (text s)) || ends_star (replace_char "." (text "[.]") (text s)) = true).
      { unfold ends_star. rewrite replace_rev, !starts_replace; try discriminate. fold (ends_star (text s)). apply orb_true_iff. rewrite starts_star_spec, ends_star_spec.
        destruct P as [P|(p & _ & [P|P])]; [tauto|eauto|eauto]. }
      rewrite SE, both_replace in E. injection E as <-. destruct (text s) as [|c [|d l]] eqn:Et; auto.
      { destruct c as [[|] [|] [|] [|] [|] [|] [|] [|]]; auto. congruence. }
      { destruct c as [[|] [|] [|] [|] [|] [|] [|] [|]]; auto. }
  - apply has_star_false in Hs. split; [left; auto|]. injection E as <-. rewrite one_replace by auto.
    destruct (text s) as [|c [|d l]] eqn:Et; auto; destruct c as [[|] [|] [|] [|] [|] [|] [|] [|]]; auto. destruct Hs. left; auto.
Qed.
Lemma reads_value : forall y t s rest m, str_value y = Some t -> y = YStr s -> not_rep rest -> reads rest ([] :: m) -> reads (t ++ rest) (value_alt (text s) :: m).
Proof.
  intros y t s rest m E -> Nr H. destruct (str_value_text _ _ E) as (s' & Es & F & L & ->). injection Es as <-.
  destruct (list_eq_dec ascii_dec (text s) ["*"]) as [Et|Nt].
  - rewrite Et. change ((allowed_chars ++ ["+"]) ++ rest) with ("[" :: "." :: "\" :: "w" :: "/" :: "\" :: "-" :: "]" :: "+" :: rest). unfold value_alt.
    apply (reads_atom _ _ (alpha_class, "+" :: rest) Plus rest); auto. discriminate.
  - rewrite (value_alt_other _ Nt). replace (match text s with ["*"] => allowed_chars ++ ["+"] | l => flat_map char_text l end) with (flat_map char_text (text s)).
    + rewrite <- (app_nil_r (map char_piece (text s))). apply reads_chars; auto.
    + clear - Nt. destruct (text s) as [|c [|d l]]; auto; destruct c as [[|] [|] [|] [|] [|] [|] [|] [|]]; auto. congruence.
Qed.
Definition is_str (s : string) (y : yaml) : Prop := y = YStr s.
Lemma reads_values : forall l ts, l <> [] -> mapM str_value l = Some ts ->
  exists ss, Forall2 (fun y s => y = YStr s) l ss /\ reads (join_texts "|" ts) (map (fun s => value_alt (text s)) ss).
Proof.
  induction l as [|y l IH]; intros ts Ne E; [congruence|]. cbn [mapM] in E. destruct (str_value y) as [t|] eqn:Ey; [|discriminate]. cbn [bind] in E.
  destruct (mapM str_value l) as [ts'|] eqn:El; [|discriminate]. cbn [bind] in E. injection E as <-.
  destruct (str_value_text _ _ Ey) as (s & -> & _). destruct l as [|y' l'].
  - injection El as <-. exists [s]. split; [repeat constructor|]. cbn [join_texts map]. rewrite <- (app_nil_r t). apply (reads_value (YStr s)); auto; [exact I|]. exists 1. reflexivity.
  - destruct (IH ts' ltac:(discriminate) eq_refl) as (ss & F & H). exists (s :: ss). split; [constructor; auto|].
    assert (Nt : ts' <> []). { cbn [mapM] in El. destruct (str_value y'); [|discriminate]. cbn [bind] in El. destruct (mapM str_value l'); [|discriminate]. injection El as <-. discriminate. }
    destruct ts' as [|t' ts'']; [congruence|]. change (join_texts "|" (t :: t' :: ts'')) with (t ++ "|" :: join_texts "|" (t' :: ts'')). cbn [map].
    apply (reads_value (YStr s)); auto; [cbn; split; discriminate|]. destruct H as (f & Hf). exists (S f). cbn [read_alts]. change (Ascii.eqb "|" "|") with true. cbv iota. rewrite Hf. reflexivity.
Qed.

(** What the pieces match. *)
Lemma seq_app : forall a b w, seq_matches (a ++ b) w <-> exists x y, w = x ++ y /\ seq_matches a x /\ seq_matches b y.
Proof.
  induction a as [|p a IH]; intros b w; cbn [app seq_matches].
  - split; [intros H; exists [], w; auto|intros (x & y & -> & -> & H); auto].
  - split.
    + intros (x & y & -> & Hx & Hy). apply IH in Hy as (y1 & y2 & -> & H1 & H2). exists (x ++ y1), y2. rewrite app_assoc. split; auto. split; auto. exists x, y1. auto.
    + intros (x & y & -> & (x1 & x2 & -> & H1 & H2) & Hy). exists x1, (x2 ++ y). rewrite app_assoc. split; auto. split; auto. apply IH. exists x2, y. auto.
Qed.
Lemma seq_exact : forall l w, ~ In "*" l -> (seq_matches (map char_piece l) w <-> w = l).
Proof.
  induction l as [|c l IH]; intros w N; cbn [map seq_matches]; [tauto|]. unfold char_piece at 1. destruct (Ascii.eqb_spec "*" c) as [<-|_]; [destruct N; left; auto|].
  assert (N' : ~ In "*" l) by (intros H; apply N; right; auto). split.
  - intros (a & b & -> & (d & -> & i & [<-|[]] & Hi) & Hb). apply IH in Hb; auto. cbn in Hi. subst. reflexivity.
  - intros ->. exists [c], l. split; auto. split; [exists c; split; auto; exists (IChar c); split; [left|]; reflexivity|]. apply IH; auto.
Qed.
Lemma seq_star : forall w, seq_matches [Piece alpha_class Star] w <-> over_alphabet w.
Proof.
  intros w. cbn [seq_matches]. unfold piece_matches, over_alphabet. cbn [p_rep p_class]. split.
  - intros (a & b & -> & F & ->). rewrite app_nil_r. revert F. apply Forall_impl. intros c. apply in_alpha_class.
  - intros F. exists w, []. rewrite app_nil_r. split; auto. split; auto. revert F. apply Forall_impl. intros c. apply in_alpha_class.
Qed.
Lemma seq_value : forall s w, Forall value_char (text s) -> legal (text s) -> (seq_matches (value_alt (text s)) w <-> over_alphabet w /\ value_matches (text s) w).
Proof.
  intros s w F L. assert (AP : forall p, Forall value_char p -> ~ In "*" p -> over_alphabet p).
  { intros p Fp N. unfold over_alphabet. apply Forall_forall. intros c Hc. rewrite Forall_forall in Fp. destruct (Fp c Hc) as [->|H]; [tauto|auto]. }
  set (v := text s) in *. clearbody v. unfold value_matches. destruct (list_eq_dec ascii_dec v ["*"]) as [->|Nv].
  - unfold value_alt. cbn [seq_matches]. unfold piece_matches. cbn [p_rep p_class]. split.
    + intros (a & b & -> & [Na Fa] & ->). rewrite app_nil_r. split; [revert Fa; apply Forall_impl; intros c; apply in_alpha_class|]. right; left. auto.
    + intros [O [[H _]|[[_ H]|[(p & x & P1 & P2 & P3 & _)|(p & x & P1 & P2 & P3 & _)]]]].
      * destruct H. left; auto.
      * exists w, []. rewrite app_nil_r. split; auto. split; auto. split; auto. revert O. apply Forall_impl. intros c. apply in_alpha_class.
      * destruct p as [|c [|d p]]; try discriminate. congruence.
      * injection P3 as <-. congruence.
  - rewrite (value_alt_other _ Nv). destruct L as [Ns|(p & Np & [->| ->])].
    + rewrite (seq_exact v w Ns). split; [intros ->; split; auto|].
      intros [O [[_ H]|[[H _]|[(p & x & P1 & P2 & P3 & _)|(p & x & P1 & P2 & P3 & _)]]]]; auto; [congruence| |]; exfalso; apply Ns; rewrite P3; [apply in_or_app; right; left|left]; auto.
    + assert (Pn : p <> []) by (intros ->; apply Nv; auto). apply Forall_app in F as [F1 _]. rewrite map_app, seq_app. cbn [map]. change (char_piece "*") with (Piece alpha_class Star).
      split.
      * intros (x & y & -> & Hx & Hy). apply (seq_exact p x Np) in Hx. subst x. apply seq_star in Hy. split; [apply Forall_app; split; auto; apply AP; auto|].
        right; right; left. exists p, y. auto.
      * intros [O [[H _]|[[H _]|[(p' & x & P1 & P2 & P3 & P4)|(p' & x & P1 & P2 & P3 & P4)]]]].
        -- destruct H. apply in_or_app; right; left; auto.
        -- destruct (Nv H).
        -- apply app_inj_tail in P3 as [<- _]. subst w. exists p, x. split; auto. apply Forall_app in O as [_ O]. split; [apply seq_exact; auto|apply seq_star; auto].
        -- destruct p as [|c p]; [congruence|]. injection P3 as -> _. destruct Np. left; auto.
    + assert (Pn : p <> []) by (intros ->; apply Nv; auto). inversion F as [|? ? _ F1]; subst. change ("*" :: p) with (["*"] ++ p). rewrite map_app, seq_app. cbn [map].
      change (char_piece "*") with (Piece alpha_class Star). split.
      * intros (x & y & -> & Hx & Hy). apply (seq_exact p y Np) in Hy. subst y. apply seq_star in Hx. split; [apply Forall_app; split; auto; apply AP; auto|].
        right; right; right. exists p, x. auto.
      * intros [O [[H _]|[[H _]|[(p' & x & P1 & P2 & P3 & P4)|(p' & x & P1 & P2 & P3 & P4)]]]].
        -- destruct H. left; auto.
        -- destruct (Nv H).
        -- destruct p' as [|c p']; [congruence|]. injection P3 as <- _. destruct P2. left; auto.
        -- injection P3 as <-. subst w. exists x, p. split; auto. apply Forall_app in O as [O _]. split; [apply seq_star; auto|apply seq_exact; auto].
Qed.

(** The values that are accepted, and the language of the regular expression built from a list of values. *)
Definition acceptable (y : yaml) : Prop := exists s, y = YStr s /\ Forall value_char (text s) /\ legal (text s).
Lemma str_value_some : forall y, acceptable y <-> exists t, str_value y = Some t.
Proof.
  intros y. split; [|intros (t & E); destruct (str_value_text _ _ E) as (s & H1 & H2 & H3 & _); exists s; auto].
  intros (s & -> & F & L). unfold str_value. apply value_chars in F. rewrite F. cbn [negb]. cbv zeta. destruct (dot_replace (text s)) as [D1 D2]. rewrite D1, D2.
  apply pattern_ok_legal in L. rewrite L. cbn [negb]. destruct (has_star (text s)); [|eauto].
  match goal with |- context [if ?b then _ else if ?d then _ else _] => destruct b; [eauto|destruct d; eauto] end.
Qed.
Theorem C40_rejected_values : forall l, values_regex l = None <-> l = [] \/ exists y, In y l /\ ~ acceptable y.
Proof.
  intros l. unfold values_regex.
  assert (G : mapM str_value l = None <-> exists y, In y l /\ ~ acceptable y).
  { induction l as [|y l IH]; cbn [mapM In].
    - split; [discriminate|intros (y & [] & _)].
    - pose proof (str_value_some y) as S. destruct (str_value y) as [t|]; cbn [bind].
      + assert (Ay : acceptable y) by (apply S; eauto). destruct (mapM str_value l) as [ts|]; cbn [bind].
        * split; [discriminate|]. intros (z & [<-|Hz] & N); [tauto|]. assert (X : Some ts = None) by (apply IH; eauto). discriminate.
        * split; auto. intros _. destruct (proj1 IH eq_refl) as (z & Hz & N). eauto.
      + split; auto. intros _. exists y. split; auto. intros H. apply S in H as (t & H). discriminate. }
  destruct l as [|y l]; [tauto|]. cbn [In] in *. destruct (mapM str_value (y :: l)); cbn [bind].
  - split; [discriminate|]. intros [H|H]; [discriminate|]. apply G in H. discriminate.
  - split; auto. intros _. right. apply G. reflexivity.
Qed.
Theorem C40_regex_language : forall l t, values_regex l = Some t ->
  exists e, read_regex t = Some e /\ forall w, re_matches e w <-> over_alphabet w /\ exists s, In (YStr s) l /\ value_matches (text s) w.
Proof.
  intros l t E. unfold values_regex in E. destruct l as [|y0 l0]; [discriminate|]. set (l := y0 :: l0) in *. destruct (mapM str_value l) as [ts|] eqn:El; [|discriminate]. cbn [bind] in E.
  injection E as <-. destruct (reads_values l ts ltac:(discriminate) El) as (ss & F & H). exists (map (fun s => value_alt (text s)) ss). split; [apply reads_regex; auto|].
  intros w. unfold re_matches.
  assert (SS : forall s, In s ss <-> In (YStr s) l).
  { clear - F. induction F as [|y s l ss E F IH]; intros u; cbn [In]; [tauto|]. rewrite IH. subst y. split; intros [H|H]; auto; left; congruence. }
  assert (AC : forall s, In s ss -> Forall value_char (text s) /\ legal (text s)).
  { intros s Hs. apply SS in Hs. assert (Hn : exists t, str_value (YStr s) = Some t).
    { clear - El Hs. revert ts El. induction l as [|y l IH]; intros ts El; [destruct Hs|]. cbn [mapM] in El. destruct (str_value y) as [t|] eqn:Ey; [|discriminate]. cbn [bind] in El.
      destruct (mapM str_value l) as [ts'|]; [|discriminate]. destruct Hs as [->|Hs]; eauto. }
    destruct Hn as (t & Et). destruct (str_value_text _ _ Et) as (s' & Es & F1 & F2 & _). injection Es as <-. auto. }
  split.
  - intros (a & Ha & M). apply in_map_iff in Ha as (s & <- & Hs). destruct (AC s Hs) as [F1 F2]. apply (seq_value s w F1 F2) in M as [O M]. split; auto. exists s. split; auto. apply SS; auto.
  - intros [O (s & Hs & M)]. apply SS in Hs. destruct (AC s Hs) as [F1 F2]. exists (value_alt (text s)). split; [apply in_map_iff; eauto|]. apply (seq_value s w F1 F2). auto.
Qed.

(** ** Cases *)
Local Open Scope string_scope.
Example ex_enumerated :
  enumerated "prod*" ["default"; "prod"; "prod-eu"; "preprod"] = Some ["prod"; "prod-eu"] /\
  enumerated "*prod" ["default"; "prod"; "prod-eu"; "preprod"] = Some ["prod"; "preprod"] /\
  enumerated "*" ["default"; "prod"] = Some ["default"; "prod"] /\ enumerated "prod" ["default"; "prod"; "prod-eu"] = Some ["prod"] /\
  enumerated "pr*d" ["default"; "prod"] = None /\ enumerated "*prod*" ["prod"] = None.
Proof. repeat apply conj; vm_compute; reflexivity. Qed.
Example ex_values_regex :
  values_regex [YStr "/info*"; YStr "*.html"; YStr "*"; YStr "/v1.0"] = Some (text "/info[.\w/\-]*|[.\w/\-]*[.]html|[.\w/\-]+|/v1[.]0") /\
  values_regex [YStr "/a"; YStr "/a b"] = None /\ values_regex [YStr "/*/x"] = None /\ values_regex [YInt 3%Z] = None.
Proof. repeat apply conj; vm_compute; reflexivity. Qed.
Example ex_matches : exists e, read_regex (text "/info[.\w/\-]*|[.\w/\-]*[.]html") = Some e /\
  re_matches e (text "/info/x") /\ re_matches e (text "/a/b.html") /\ ~ re_matches e (text "/inf") /\ ~ re_matches e (text "/a/bxhtml").
Proof.
  destruct (C40_regex_language [YStr "/info*"; YStr "*.html"] _ eq_refl) as (e & He & M). exists e. split; [exact He|].
  assert (O : forall w, forallb alphabet w = true -> over_alphabet w) by (intros w H; apply Forall_forall; apply forallb_forall; exact H).
  assert (P : forall s w, value_matches s w <-> value_matches s w) by tauto.
  split; [|split; [|split]].
  - apply M. split; [apply O; reflexivity|]. exists "/info*". split; [left; auto|]. right; right; left. exists (text "/info"), (text "/x").
    repeat apply conj; auto; [discriminate|]. apply has_star_false. reflexivity.
  - apply M. split; [apply O; reflexivity|]. exists "*.html". split; [right; left; auto|]. right; right; right. exists (text ".html"), (text "/a/b").
    repeat apply conj; auto; [discriminate|]. apply has_star_false. reflexivity.
  - intros H. apply M in H as [_ (s & [E|[E|[]]] & H)]; injection E as <-.
    + destruct H as [[H _]|[[H _]|[(p & x & _ & _ & E & H)|(p & x & _ & _ & E & _)]]]; [destruct H; vm_compute; tauto|discriminate| |discriminate].
      change (text "/info*") with (text "/info" ++ ["*"%char])%list in E. apply app_inj_tail in E as [<- _]. discriminate.
    + destruct H as [[H _]|[[H _]|[(p & x & _ & Np & E & _)|(p & x & _ & _ & E & H)]]]; [destruct H; vm_compute; tauto|discriminate| |].
      * destruct p as [|c p]; [discriminate|]. cbn in E. injection E as <- _. destruct Np. left; auto.
      * cbn in E. injection E as <-. apply (f_equal (@List.length ascii)) in H. rewrite app_length in H. cbn in H. lia.
  - intros H. apply M in H as [_ (s & [E|[E|[]]] & H)]; injection E as <-.
    + destruct H as [[H _]|[[H _]|[(p & x & _ & _ & E & H)|(p & x & _ & _ & E & _)]]]; [destruct H; vm_compute; tauto|discriminate| |discriminate].
      change (text "/info*") with (text "/info" ++ ["*"%char])%list in E. apply app_inj_tail in E as [<- _]. discriminate.
    + destruct H as [[H _]|[[H _]|[(p & x & _ & Np & E & _)|(p & x & _ & _ & E & H)]]]; [destruct H; vm_compute; tauto|discriminate| |].
      * destruct p as [|c p]; [discriminate|]. cbn in E. injection E as <- _. destruct Np. left; auto.
      * cbn in E. injection E as <-. apply (f_equal (@rev ascii)) in H. rewrite rev_app_distr in H. discriminate.
Qed.
(** The empty name: the look-up lists of the code never hold it, and "*" would match it if they did. *)
Theorem C40_empty_name_refuted : ~ forall v values r, enumerated v values = Some r -> forall w, In w r <-> In w values /\ value_matches (text v) (text w).
Proof.
  intros H. destruct (proj1 (H "*" [""] [""] eq_refl "") (or_introl eq_refl)) as [_ [[M _]|[[_ M]|[(p & x & P & _ & _ & M)|(p & x & P & _ & _ & M)]]]].
  - apply M. left; auto.
  - apply M; auto.
  - destruct p; [congruence|discriminate].
  - destruct x; [destruct p; [congruence|discriminate]|discriminate].
Qed.

Print Assumptions C40_illegal_pattern.
Print Assumptions C40_enumerated.
Print Assumptions C40_rejected_values.
Print Assumptions C40_regex_language.
Print Assumptions C40_empty_name_refuted.
