(** * The structure of selector texts: brackets, operators, and how CalicoSelectorModel.v takes them apart. *)
From Coq Require Import ZArith List Bool Arith Lia String Ascii.
From Verif Require Import IntervalModel TextModel PortProtoModel PeerModel YamlModel ClusterModel CalicoSelectorModel CalicoSelectorFacts.
Import ListNotations.
Local Open Scope char_scope.
Local Open Scope list_scope.
Local Open Scope nat_scope.

Lemma app_cut : forall (X : Type) (a b x y : list X), a ++ b = x ++ y ->
  (exists r, x = a ++ r /\ b = r ++ y) \/ (exists r, a = x ++ r /\ y = r ++ b).
Proof.
  intros X a; induction a as [|c a IH]; intros b x y E.
  - left. exists x. auto.
  - destruct x as [|d x].
    + right. exists (c :: a). auto.
    + cbn in E. injection E as -> E. destruct (IH b x y E) as [(r & -> & ->)|(r & -> & ->)]; [left|right]; exists r; auto.
Qed.
Lemma app_mid : forall (X : Type) (a b x y : list X) c, a ++ c :: b = x ++ y ->
  (exists r, x = a ++ c :: r /\ b = r ++ y) \/ (exists a', a = x ++ a' /\ y = a' ++ c :: b).
Proof.
  intros X a b x y c E. destruct (app_cut X a (c :: b) x y E) as [(r & -> & H)|(r & -> & ->)].
  - destruct r as [|d r].
    + right. exists []. cbn in H. rewrite !app_nil_r. split; auto. 
    + left. cbn in H. injection H as <- ->. eauto.
  - right. eauto.
Qed.

(** ** Bracket depth *)
Definition bump (c : ascii) : Z := if Ascii.eqb c "(" then 1%Z else if Ascii.eqb c ")" then (-1)%Z else 0%Z.
Fixpoint depth (l : list ascii) : Z := match l with [] => 0%Z | c :: t => (bump c + depth t)%Z end.
Lemma depth_app : forall a b, depth (a ++ b) = (depth a + depth b)%Z.
Proof. induction a as [|c a IH]; intros b; cbn [app depth]; auto. rewrite IH. lia. Qed.
Lemma depth_count : forall l, depth l = (Z.of_nat (count "(" l) - Z.of_nat (count ")" l))%Z.
Proof.
  unfold count. induction l as [|c l IH]; auto. cbn [depth count_occ]. rewrite IH. unfold bump.
  destruct (ascii_dec c "("), (ascii_dec c ")"), (Ascii.eqb_spec c "("), (Ascii.eqb_spec c ")"); subst; try congruence; try discriminate; lia.
Qed.
Lemma depth_zero : forall l, (count "(" l =? count ")" l) = true <-> depth l = 0%Z.
Proof. intros l. rewrite depth_count, Nat.eqb_eq. lia. Qed.
Lemma closes_spec : forall l n, closes n l = true <-> exists a b, l = a ++ b /\ a <> [] /\ (n + depth a = 0)%Z.
Proof.
  induction l as [|c l IH]; intros n; cbn [closes].
  - split; [discriminate|]. intros (a & b & E & N & _). destruct a; [congruence|discriminate].
  - assert (B : (if Ascii.eqb c "(" then (n + 1)%Z else if Ascii.eqb c ")" then (n - 1)%Z else n) = (n + bump c)%Z).
    { unfold bump. destruct (Ascii.eqb c "("); [|destruct (Ascii.eqb c ")")]; lia. }
    rewrite B, orb_true_iff, Z.eqb_eq, IH. split.
    + intros [E|(a & b & -> & N & E)].
      * exists [c], l. cbn [depth app]. split; auto. split; [discriminate|lia].
      * exists (c :: a), b. cbn [depth app]. split; auto. split; [discriminate|lia].
    + intros (a & b & E & N & D). destruct a as [|d a]; [congruence|]. cbn [app depth] in *. injection E as <- ->.
      destruct a as [|e a]; [left; cbn [depth] in D; lia|right]. exists (e :: a), b. split; auto. split; [discriminate|lia].
Qed.

(** ** Characters *)
Definition calm (c : ascii) : bool := is_space c || key_char c || existsb (Ascii.eqb c) ["="; "!"; "'"; "{"; "}"; ","].
Lemma calm_not : forall c, calm c = true -> c <> "(" /\ c <> ")" /\ c <> "|" /\ c <> "&".
Proof. intros c H. repeat split; intros ->; discriminate H. Qed.
Definition all_calm (l : list ascii) : Prop := Forall (fun c => calm c = true) l.
Lemma calm_app : forall a b, all_calm a -> all_calm b -> all_calm (a ++ b).
Proof. intros a b A B. apply Forall_app. auto. Qed.
Lemma blanks_calm : forall w, blanks w -> all_calm w.
Proof. intros w H. eapply Forall_impl; [|exact H]. intros c E. unfold calm. rewrite E. reflexivity. Qed.
Lemma gap_calm : forall w, gap w -> all_calm w.
Proof. intros w [_ H]. apply blanks_calm; auto. Qed.
Lemma word_calm : forall k, word k -> all_calm (text k).
Proof. intros k [_ H]. eapply Forall_impl; [|exact H]. intros c E. unfold calm. rewrite E, orb_true_r. reflexivity. Qed.
Lemma quote_calm : forall v, word v -> all_calm (quote v).
Proof. intros v H. constructor; [reflexivity|]. apply calm_app; [apply word_calm; auto|repeat constructor]. Qed.
Lemma cons_calm : forall c t, calm c = true -> all_calm t -> all_calm (c :: t).
Proof. intros. constructor; auto. Qed.
#[local] Hint Resolve calm_app blanks_calm gap_calm word_calm quote_calm cons_calm : calm.
Lemma vals_calm : forall t vs, vals_text blanks t vs -> all_calm t.
Proof.
  induction 1; auto 10 with calm.
Qed.
#[local] Hint Resolve vals_calm : calm.
Lemma depth_calm : forall l, all_calm l -> depth l = 0%Z.
Proof.
  induction 1 as [|c l H _ IH]; auto. cbn [depth]. rewrite IH. destruct (calm_not c H) as (A & B & _). unfold bump.
  destruct (Ascii.eqb_spec c "("); [congruence|]. destruct (Ascii.eqb_spec c ")"); [congruence|]. lia.
Qed.
Definition lit_calm (s : string) : forallb calm (text s) = true -> all_calm (text s).
Proof. intros H. unfold all_calm. rewrite Forall_forall. rewrite forallb_forall in H. exact H. Qed.

Lemma atom_shape : forall s a, atom_text blanks gap s a ->
  all_calm s \/ exists p m, s = p ++ "(" :: m ++ [")"] /\ all_calm p /\ all_calm m.
Proof.
  intros s a H.
  assert (L1 : all_calm (text "==")) by (apply lit_calm; reflexivity).
  assert (L2 : all_calm (text "!=")) by (apply lit_calm; reflexivity).
  assert (L3 : all_calm (text "in")) by (apply lit_calm; reflexivity).
  assert (L4 : all_calm (text "not")) by (apply lit_calm; reflexivity).
  assert (L5 : all_calm (text "contains")) by (apply lit_calm; reflexivity).
  assert (L6 : all_calm (text "starts")) by (apply lit_calm; reflexivity).
  assert (L7 : all_calm (text "ends")) by (apply lit_calm; reflexivity).
  assert (L8 : all_calm (text "with")) by (apply lit_calm; reflexivity).
  assert (L9 : all_calm ["}"]) by (repeat constructor).
  destruct H.
  - right. exists (text "all"), []. split; [reflexivity|]. split; [apply lit_calm; reflexivity|constructor].
  - right. exists (text "global"), []. split; [reflexivity|]. split; [apply lit_calm; reflexivity|constructor].
  - right. exists (text "has"), (text k). split; [reflexivity|]. split; [apply lit_calm; reflexivity|auto with calm].
  - left. auto 20 with calm.
  - left. auto 20 with calm.
  - left. repeat apply calm_app; eauto with calm.
  - left. repeat apply calm_app; eauto with calm.
  - left. auto 20 with calm.
  - left. auto 20 with calm.
  - left. auto 20 with calm.
Qed.
Lemma atom_head : forall s a, atom_text blanks gap s a -> exists c t, s = c :: t /\ key_char c = true.
Proof.
  assert (K : forall k r, word k -> exists c t, text k ++ r = c :: t /\ key_char c = true).
  { intros k r [N F]. destruct k as [|c k]; [congruence|]. inversion F; subst. exists c, (text k ++ r). auto. }
  intros s a H. destruct H; try (apply K; assumption); cbn; (eexists; eexists; split; reflexivity).
Qed.
Lemma atom_last : forall s a, atom_text blanks gap s a -> exists t c, s = t ++ [c] /\ is_space c = false /\ c <> "|" /\ c <> "&".
Proof.
  intros s a H.
  assert (K : forall t c, (c = "'" \/ c = ")" \/ c = "}") -> exists t' c', t ++ [c] = t' ++ [c'] /\ is_space c' = false /\ c' <> "|" /\ c' <> "&").
  { intros t c Hc. exists t, c. split; auto. destruct Hc as [->|[->| ->]]; repeat split; try reflexivity; discriminate. }
  destruct H; unfold quote.
  - apply (K (text "all(") ")"). auto.
  - apply (K (text "global(") ")"). auto.
  - rewrite app_assoc. apply K. auto.
  - rewrite !app_comm_cons, !app_assoc. apply K. auto.
  - rewrite !app_comm_cons, !app_assoc. apply K. auto.
  - rewrite !app_comm_cons, !app_assoc. apply K. auto.
  - rewrite !app_comm_cons, !app_assoc. apply K. auto.
  - rewrite !app_comm_cons, !app_assoc. apply K. auto.
  - rewrite !app_comm_cons, !app_assoc. apply K. auto.
  - rewrite !app_comm_cons, !app_assoc. apply K. auto.
Qed.
Lemma atom_tight : forall s a, atom_text blanks gap s a -> tight s.
Proof.
  intros s a H. split.
  - destruct (atom_head s a H) as (c & t & -> & K). apply key_solid. auto.
  - destruct (atom_last s a H) as (t & c & -> & K & _). exists t, c. auto.
Qed.
(** Brackets and operators in texts made of calm characters and one pair of brackets. *)
Lemma atom_inside : forall s a, atom_text blanks gap s a ->
  depth s = 0%Z /\ (forall x y, s = x ++ y -> (0 <= depth x)%Z) /\ ~ In "|" s /\ ~ In "&" s.
Proof.
  intros s a H. destruct (atom_shape s a H) as [C|(p & m & -> & Cp & Cm)].
  - split; [apply depth_calm; auto|]. split.
    + intros x y ->. apply Forall_app in C as [C _]. rewrite (depth_calm x) by auto. lia.
    + unfold all_calm in C. rewrite Forall_forall in C. split; intros X; apply C in X; discriminate X.
  - split; [rewrite depth_app; cbn [depth]; rewrite depth_app, (depth_calm p), (depth_calm m) by auto; reflexivity|]. split.
    + intros x y E. symmetry in E. destruct (app_cut _ _ _ _ _ E) as [(r & E1 & E2)|(r & -> & E2)].
      * subst p. apply Forall_app in Cp as [Cp _]. rewrite (depth_calm x) by auto. lia.
      * rewrite depth_app, (depth_calm p) by auto. destruct r as [|c r]; [cbn; lia|]. cbn [app] in E2. injection E2 as <- E2.
        change (bump "(" + depth r)%Z with (1 + depth r)%Z || cbn [depth]. change (bump "(") with 1%Z.
        symmetry in E2. destruct (app_cut _ _ _ _ _ E2) as [(q & -> & E3)|(q & -> & E3)].
        -- apply Forall_app in Cm as [Cm _]. rewrite (depth_calm r) by auto. lia.
        -- rewrite depth_app, (depth_calm m) by auto. destruct q as [|d q]; [cbn; lia|]. cbn in E3. injection E3 as <- E3.
           destruct q; [|discriminate]. cbn. lia.
    + unfold all_calm in Cp, Cm. rewrite Forall_forall in Cp, Cm.
      split; intros X; apply in_app_iff in X as [X|[X|X]]; try discriminate X; try (apply Cp in X; discriminate X);
        apply in_app_iff in X as [X|[X|[]]]; try discriminate X; apply Cm in X; discriminate X.
Qed.
Lemma blanks_depth : forall w, blanks w -> depth w = 0%Z.
Proof. intros w H. apply depth_calm, blanks_calm. auto. Qed.
Lemma blanks_prefix : forall x y, blanks (x ++ y) -> blanks x.
Proof. intros x y H. apply Forall_app in H. tauto. Qed.
Lemma blanks_suffix : forall x y, blanks (x ++ y) -> blanks y.
Proof. intros x y H. apply Forall_app in H. tauto. Qed.
Lemma blanks_not : forall w c, blanks w -> In c w -> is_space c = false -> False.
Proof. intros w c H I S. unfold blanks in H. rewrite Forall_forall in H. apply H in I. congruence. Qed.

(** ** Grammatical texts are balanced *)
Lemma gram_depth : forall l s e, gram l s e -> depth s = 0%Z /\ forall x y, s = x ++ y -> (0 <= depth x)%Z.
Proof.
  induction 1 as [s e _ IH|s e t f _ [A1 A2] _ [B1 B2]|s e _ IH|s e t f _ [A1 A2] _ [B1 B2]|w s e Hw _ [A1 A2]|w1 w2 s e H1 H2 _ [A1 A2]
                 |w1 w2 s a H1 H2 Ha]; auto.
  - split; [rewrite depth_app; cbn [depth]; rewrite A1, B1; reflexivity|]. intros x y E. symmetry in E.
    destruct (app_cut _ _ _ _ _ E) as [(r & E1 & E2)|(r & -> & E2)]; [eauto|].
    rewrite depth_app, A1. destruct r as [|c r]; [cbn; lia|]. cbn in E2. injection E2 as <- E2.
    destruct r as [|d r]; [cbn; lia|]. cbn in E2. injection E2 as <- E2. cbn [depth]. change (bump "|") with 0%Z.
    pose proof (B2 r y E2). lia.
  - split; [rewrite depth_app; cbn [depth]; rewrite A1, B1; reflexivity|]. intros x y E. symmetry in E.
    destruct (app_cut _ _ _ _ _ E) as [(r & E1 & E2)|(r & -> & E2)]; [eauto|].
    rewrite depth_app, A1. destruct r as [|c r]; [cbn; lia|]. cbn in E2. injection E2 as <- E2.
    destruct r as [|d r]; [cbn; lia|]. cbn in E2. injection E2 as <- E2. cbn [depth]. change (bump "&") with 0%Z.
    pose proof (B2 r y E2). lia.
  - split; [rewrite depth_app; cbn [depth]; rewrite A1, (blanks_depth w) by auto; reflexivity|]. intros x y E. symmetry in E.
    destruct (app_cut _ _ _ _ _ E) as [(r & E1 & E2)|(r & -> & E2)].
    + subst w. rewrite (blanks_depth x) by (eapply blanks_prefix; eauto). lia.
    + rewrite depth_app, (blanks_depth w) by auto. destruct r as [|c r]; [cbn; lia|]. cbn in E2. injection E2 as <- E2.
      cbn [depth]. change (bump "!") with 0%Z. pose proof (A2 r y E2). lia.
  - split; [rewrite depth_app; cbn [depth]; rewrite depth_app; cbn [depth]; rewrite A1, (blanks_depth w1), (blanks_depth w2) by auto; reflexivity|].
    intros x y E. symmetry in E. destruct (app_cut _ _ _ _ _ E) as [(r & E1 & E2)|(r & -> & E2)].
    + subst w1. rewrite (blanks_depth x) by (eapply blanks_prefix; eauto). lia.
    + rewrite depth_app, (blanks_depth w1) by auto. destruct r as [|c r]; [cbn; lia|]. cbn in E2. injection E2 as <- E2.
      cbn [depth]. change (bump "(") with 1%Z. symmetry in E2. destruct (app_cut _ _ _ _ _ E2) as [(q & E3 & E4)|(q & -> & E4)].
      * pose proof (A2 r q E3). lia.
      * rewrite depth_app, A1. destruct q as [|d q]; [cbn; lia|]. cbn in E4. injection E4 as <- E4. subst w2.
        cbn [depth]. change (bump ")") with (-1)%Z. rewrite (blanks_depth q) by (eapply blanks_prefix; eauto). lia.
  - destruct (atom_inside s a Ha) as (A1 & A2 & _).
    split; [rewrite !depth_app, A1, (blanks_depth w1), (blanks_depth w2) by auto; reflexivity|].
    intros x y E. symmetry in E. destruct (app_cut _ _ _ _ _ E) as [(r & E1 & E2)|(r & -> & E2)].
    + subst w1. rewrite (blanks_depth x) by (eapply blanks_prefix; eauto). lia.
    + rewrite depth_app, (blanks_depth w1) by auto. symmetry in E2. destruct (app_cut _ _ _ _ _ E2) as [(q & E3 & E4)|(q & -> & E4)].
      * pose proof (A2 r q E3). lia.
      * rewrite depth_app, A1. subst w2. rewrite (blanks_depth q) by (eapply blanks_prefix; eauto). lia.
Qed.
(** Operators of a weaker kind occur inside brackets only. *)
Lemma gram_ops : forall l s e, gram l s e ->
  (l <> LOr -> forall x y, s = x ++ "|" :: y -> (0 < depth x)%Z) /\ (l = LUn -> forall x y, s = x ++ "&" :: y -> (0 < depth x)%Z).
Proof.
  induction 1 as [s e _ IH|s e t f H1 IH1 H2 IH2|s e _ IH|s e t f H1 IH1 H2 IH2|w s e Hw H IH|w1 w2 s e H1 H2 H IH
                 |w1 w2 s a H1 H2 Ha].
  - split; congruence.
  - split; congruence.
  - destruct IH as [A _]. split; [|congruence]. intros _. apply A. discriminate.
  - split; [|congruence]. intros _ x y E. symmetry in E. destruct (gram_depth _ _ _ H1) as [D _].
    destruct (app_mid _ _ _ _ _ _ E) as [(r & E1 & E2)|(r & -> & E2)].
    + exact (proj1 IH1 ltac:(discriminate) _ _ E1).
    + rewrite depth_app, D. destruct r as [|c r]; [cbn in E2; congruence|]. cbn in E2. injection E2 as <- E2.
      destruct r as [|d r]; [cbn in E2; congruence|]. cbn in E2. injection E2 as <- E2. cbn [depth]. change (bump "&") with 0%Z.
      pose proof (proj1 IH2 ltac:(discriminate) _ _ E2). lia.
  - assert (G : forall c, (c = "|" \/ c = "&") -> forall x y, w ++ "!" :: s = x ++ c :: y -> exists r, s = r ++ c :: y /\ depth x = depth r).
    { intros c Hc x y E. symmetry in E. assert (Sc : is_space c = false) by (destruct Hc as [->| ->]; reflexivity).
      destruct (app_mid _ _ _ _ _ _ E) as [(r & E1 & E2)|(r & -> & E2)].
      - subst w. exfalso. eapply (blanks_not _ c Hw); auto. apply in_or_app. right; left; auto.
      - destruct r as [|d r]; [cbn in E2; destruct Hc; subst c; discriminate E2|]. cbn in E2. injection E2 as <- E2. exists r. split; auto.
        rewrite depth_app, (blanks_depth w) by auto. reflexivity. }
    destruct IH as [A B]. split.
    + intros _ x y E. destruct (G "|" (or_introl eq_refl) x y E) as (r & E1 & ->). exact (A ltac:(discriminate) _ _ E1).
    + intros _ x y E. destruct (G "&" (or_intror eq_refl) x y E) as (r & E1 & ->). exact (B eq_refl _ _ E1).
  - destruct (gram_depth _ _ _ H) as [D P].
    assert (G : forall c, (c = "|" \/ c = "&") -> forall x y, w1 ++ "(" :: s ++ ")" :: w2 = x ++ c :: y -> (0 < depth x)%Z).
    { intros c Hc x y E. symmetry in E. assert (Sc : is_space c = false) by (destruct Hc as [->| ->]; reflexivity).
      destruct (app_mid _ _ _ _ _ _ E) as [(r & E1 & E2)|(r & -> & E2)].
      - subst w1. exfalso. eapply (blanks_not _ c H1); auto. apply in_or_app. right; left; auto.
      - rewrite depth_app, (blanks_depth w1) by auto.
        destruct r as [|d r]; [cbn in E2; destruct Hc; subst c; discriminate E2|]. cbn in E2. injection E2 as <- E2.
        cbn [depth]. change (bump "(") with 1%Z. symmetry in E2. destruct (app_mid _ _ _ _ _ _ E2) as [(q & E3 & E4)|(q & -> & E4)].
        + pose proof (P r (c :: q) E3). lia.
        + exfalso. destruct q as [|d q]; [cbn in E4; destruct Hc; subst c; discriminate E4|]. cbn in E4. injection E4 as <- E4. subst w2.
          eapply (blanks_not _ c H2); auto. apply in_or_app. right; left; auto. }
    split; intros _; apply G; auto.
  - destruct (atom_inside s a Ha) as (_ & _ & N1 & N2).
    assert (G : forall c, (c = "|" \/ c = "&") -> ~ In c s -> forall x y, w1 ++ s ++ w2 = x ++ c :: y -> False).
    { intros c Hc N x y E. assert (Sc : is_space c = false) by (destruct Hc as [->| ->]; reflexivity).
      assert (I : In c (w1 ++ s ++ w2)) by (rewrite E; apply in_or_app; right; left; auto).
      apply in_app_iff in I as [I|I]; [eapply (blanks_not _ c H1); eauto|].
      apply in_app_iff in I as [I|I]; [auto|eapply (blanks_not _ c H2); eauto]. }
    split; intros _ x y E; exfalso; [eapply (G "|"); eauto|eapply (G "&"); eauto].
Qed.

(** ** First and last characters, and stripping *)
Lemma gram_ne : forall l s e, gram l s e -> s <> [].
Proof.
  intros l s e H N. subst s. assert (G : forall l s e, gram l s e -> s = [] -> False); [|eapply G; eauto].
  clear. induction 1 as [s e _ IH|s e t f _ IH _ _|s e _ IH|s e t f _ IH _ _|w s e _ _ _|w1 w2 s e _ _ _ _|w1 w2 s a _ _ Ha]; auto; intros E.
  - apply app_eq_nil in E as [_ E]. discriminate.
  - apply app_eq_nil in E as [_ E]. discriminate.
  - apply app_eq_nil in E as [_ E]. discriminate.
  - apply app_eq_nil in E as [_ E]. discriminate.
  - apply app_eq_nil in E as [_ E]. apply app_eq_nil in E as [E _]. destruct (atom_head s a Ha) as (c & t & -> & _). discriminate.
Qed.
Lemma gram_last : forall l s e, gram l s e -> forall t c, s = t ++ [c] -> c <> "|" /\ c <> "&".
Proof.
  assert (B : forall w c, blanks (w ++ [c]) -> c <> "|" /\ c <> "&").
  { intros w c H. apply blanks_suffix in H. inversion H; subst. split; intros ->; discriminate. }
  assert (K : forall (a b t : list ascii) c, b <> [] -> a ++ b = t ++ [c] -> exists r, b = r ++ [c]).
  { intros a b t c N E. destruct (app_cut _ _ _ _ _ E) as [(r & E1 & E2)|(r & E1 & E2)].
    - eauto.
    - destruct r as [|d r]; [exists []; cbn in *; auto|]. destruct r; [|discriminate]. cbn in E2. destruct b; [congruence|discriminate]. }
  induction 1 as [s e _ IH|s e t f _ _ H IH|s e _ IH|s e t f _ _ H IH|w s e _ H IH|w1 w2 s e _ H2 _ _|w1 w2 s a _ H2 Ha]; auto; intros u c E.
  - change (s ++ "|" :: "|" :: t) with (s ++ (["|"; "|"] ++ t)) in E. rewrite app_assoc in E.
    destruct (K _ _ _ _ (gram_ne _ _ _ H) E) as (r & ->). eapply IH; eauto.
  - change (s ++ "&" :: "&" :: t) with (s ++ (["&"; "&"] ++ t)) in E. rewrite app_assoc in E.
    destruct (K _ _ _ _ (gram_ne _ _ _ H) E) as (r & ->). eapply IH; eauto.
  - change (w ++ "!" :: s) with (w ++ (["!"] ++ s)) in E. rewrite app_assoc in E.
    destruct (K _ _ _ _ (gram_ne _ _ _ H) E) as (r & ->). eapply IH; eauto.
  - destruct w2 as [|d w2].
    + destruct (K _ _ _ _ (ltac:(discriminate) : "(" :: s ++ [")"] <> []) E) as (r & E2).
      change ("(" :: s ++ [")"]) with (("(" :: s) ++ [")"]) in E2. apply app_inj_tail in E2 as [_ <-]. split; discriminate.
    + change (w1 ++ "(" :: s ++ ")" :: d :: w2) with (w1 ++ ((("(" :: s) ++ [")"] ++ d :: w2))) in E. rewrite !app_assoc in E.
      destruct (K _ _ _ _ (ltac:(discriminate) : d :: w2 <> []) E) as (r & E2). eapply (B r). rewrite <- E2. auto.
  - destruct w2 as [|d w2].
    + rewrite app_nil_r in E. destruct (atom_last s a Ha) as (t & c' & -> & _ & N). rewrite app_assoc in E. apply app_inj_tail in E as [_ <-]. auto.
    + rewrite app_assoc in E. destruct (K _ _ _ _ (ltac:(discriminate) : d :: w2 <> []) E) as (r & E2). eapply (B r). rewrite <- E2. auto.
Qed.

Lemma gram_drop_left : forall l s e, gram l s e -> forall c t, s = c :: t -> is_space c = true -> gram l t e.
Proof.
  induction 1 as [s e _ IH|s e t f H IH H2 _|s e _ IH|s e t f H IH H2 _|w s e Hw H _|w1 w2 s e H1 H2 H _|w1 w2 s a H1 H2 Ha]; intros c u E Sc.
  - apply g_or1. eauto.
  - destruct s as [|d s]; [destruct (gram_ne _ _ _ H); auto|]. cbn in E. injection E as -> <-. apply g_or; auto. eapply IH; eauto.
  - apply g_and1. eauto.
  - destruct s as [|d s]; [destruct (gram_ne _ _ _ H); auto|]. cbn in E. injection E as -> <-. apply g_and; auto. eapply IH; eauto.
  - destruct w as [|d w]; cbn in E; [injection E as <- _; discriminate Sc|]. injection E as -> <-. inversion Hw; subst. apply g_not; auto.
  - destruct w1 as [|d w1]; cbn in E; [injection E as <- _; discriminate Sc|]. injection E as -> <-. inversion H1; subst. apply g_par; auto.
  - destruct w1 as [|d w1]; cbn in E.
    + destruct (atom_head s a Ha) as (d & t & -> & K). cbn in E. injection E as <- _. apply key_solid in K. congruence.
    + injection E as -> <-. inversion H1; subst. apply g_atom; auto.
Qed.
Lemma gram_drop_right : forall l s e, gram l s e -> forall t c, s = t ++ [c] -> is_space c = true -> gram l t e.
Proof.
  assert (K : forall (a b t : list ascii) c, b <> [] -> a ++ b = t ++ [c] -> exists r, b = r ++ [c] /\ t = a ++ r).
  { intros a b t c N E. destruct (app_cut _ _ _ _ _ E) as [(r & E1 & E2)|(r & E1 & E2)].
    - eauto.
    - destruct r as [|d r]; [exists []; cbn in *; rewrite app_nil_r in *; auto|]. destruct r; [|discriminate]. cbn in E2. destruct b; [congruence|discriminate]. }
  induction 1 as [s e _ IH|s e t f H1 _ H IH|s e _ IH|s e t f H1 _ H IH|w s e Hw H IH|w1 w2 s e H1 H2 H _|w1 w2 s a H1 H2 Ha]; intros u c E Sc.
  - apply g_or1. eauto.
  - change (s ++ "|" :: "|" :: t) with (s ++ (["|"; "|"] ++ t)) in E. rewrite app_assoc in E.
    destruct (K _ _ _ _ (gram_ne _ _ _ H) E) as (r & -> & ->). rewrite <- app_assoc. apply g_or; auto. eapply IH; eauto.
  - apply g_and1. eauto.
  - change (s ++ "&" :: "&" :: t) with (s ++ (["&"; "&"] ++ t)) in E. rewrite app_assoc in E.
    destruct (K _ _ _ _ (gram_ne _ _ _ H) E) as (r & -> & ->). rewrite <- app_assoc. apply g_and; auto. eapply IH; eauto.
  - change (w ++ "!" :: s) with (w ++ (["!"] ++ s)) in E. rewrite app_assoc in E.
    destruct (K _ _ _ _ (gram_ne _ _ _ H) E) as (r & -> & ->). rewrite <- app_assoc. apply g_not; auto. eapply IH; eauto.
  - destruct w2 as [|d w2].
    + exfalso. destruct (K _ _ _ _ (ltac:(discriminate) : "(" :: s ++ [")"] <> []) E) as (r & E2 & _).
      change ("(" :: s ++ [")"]) with (("(" :: s) ++ [")"]) in E2. apply app_inj_tail in E2 as [_ <-]. discriminate Sc.
    + change (w1 ++ "(" :: s ++ ")" :: d :: w2) with (w1 ++ ((("(" :: s) ++ [")"] ++ d :: w2))) in E. rewrite !app_assoc in E.
      destruct (K _ _ _ _ (ltac:(discriminate) : d :: w2 <> []) E) as (r & E2 & ->). rewrite <- !app_assoc. cbn [app].
      apply g_par; auto. rewrite E2 in H2. eapply blanks_prefix; eauto.
  - destruct w2 as [|d w2].
    + exfalso. rewrite app_nil_r in E. destruct (atom_last s a Ha) as (t & c' & -> & X & N). rewrite app_assoc in E. apply app_inj_tail in E as [_ <-]. congruence.
    + rewrite app_assoc in E. destruct (K _ _ _ _ (ltac:(discriminate) : d :: w2 <> []) E) as (r & E2 & ->). rewrite <- app_assoc.
      apply g_atom; auto. rewrite E2 in H2. eapply blanks_prefix; eauto.
Qed.
Lemma gram_lstrip : forall l s e, gram l s e -> gram l (lstrip s) e /\ hd_solid (lstrip s).
Proof.
  intros l s. induction s as [|c s IH]; intros e H; [destruct (gram_ne _ _ _ H); auto|].
  cbn [lstrip]. destruct (is_space c) eqn:E; [|auto]. apply IH. eapply gram_drop_left; eauto.
Qed.
Lemma lstrip_len : forall s, List.length (lstrip s) <= List.length s.
Proof. induction s as [|c s IH]; auto. cbn [lstrip]. destruct (is_space c); cbn [List.length]; lia. Qed.
Lemma gram_strip : forall l s e, gram l s e -> gram l (strip s) e /\ tight (strip s) /\ List.length (strip s) <= List.length s.
Proof.
  intros l s e H. unfold strip. destruct (gram_lstrip l s e H) as [G1 H1]. set (u := lstrip s) in *.
  assert (R : forall v, hd_solid (rev v) -> gram l (rev v) e -> gram l (rev (lstrip v)) e /\ tight (rev (lstrip v))).
  { induction v as [|c v IH]; intros Hh Hg; [destruct (gram_ne _ _ _ Hg); auto|]. cbn [lstrip]. destruct (is_space c) eqn:E.
    - cbn [rev] in Hh, Hg. assert (Gv : gram l (rev v) e) by (eapply gram_drop_right; eauto).
      apply IH; auto. pose proof (gram_ne _ _ _ Gv) as N. destruct (rev v); [congruence|]. exact Hh.
    - split; auto. split; auto. cbn [rev]. exists (rev v), c. auto. }
  destruct (R (rev u)) as [A B]; rewrite ?rev_involutive; auto. split; auto. split; auto.
  rewrite rev_length. pose proof (lstrip_len (rev u)). rewrite rev_length in *. pose proof (lstrip_len s). fold u in H2. lia.
Qed.

(** ** Removing brackets *)
Lemma removable_par : forall l s e, gram l s e -> forall m, s = "(" :: m ++ [")"] -> closes 0 ("(" :: m) = false -> gram LOr m e.
Proof.
  induction 1 as [s e _ IH|s e t f H IH H2 _|s e _ IH|s e t f H IH H2 _|w s e Hw H _|w1 w2 s e H1 H2 H _|w1 w2 s a H1 H2 Ha]; intros m E C; auto.
  - exfalso. assert (T : closes 0 ("(" :: m) = true); [|congruence]. apply closes_spec.
    change ("(" :: m ++ [")"]) with (("(" :: m) ++ [")"]) in E. destruct (app_cut _ _ _ _ _ E) as [(r & E1 & E2)|(r & E1 & E2)].
    + exists s, r. rewrite E1. split; auto. split; [eapply gram_ne; eauto|]. rewrite (proj1 (gram_depth _ _ _ H)). reflexivity.
    + destruct r as [|d r]; [|destruct r; discriminate]. cbn in E2. injection E2 as E2. discriminate.
  - exfalso. assert (T : closes 0 ("(" :: m) = true); [|congruence]. apply closes_spec.
    change ("(" :: m ++ [")"]) with (("(" :: m) ++ [")"]) in E. destruct (app_cut _ _ _ _ _ E) as [(r & E1 & E2)|(r & E1 & E2)].
    + exists s, r. rewrite E1. split; auto. split; [eapply gram_ne; eauto|]. rewrite (proj1 (gram_depth _ _ _ H)). reflexivity.
    + destruct r as [|d r]; [|destruct r; discriminate]. cbn in E2. injection E2 as E2. discriminate.
  - exfalso. destruct w as [|c w]; cbn in E; [discriminate|]. injection E as -> _. inversion Hw; subst. discriminate.
  - destruct w1 as [|c w1]; cbn in E; [|injection E as -> _; inversion H1; subst; discriminate]. injection E as E.
    destruct w2 as [|d w2].
    + apply app_inj_tail in E as [<- _]. auto.
    + exfalso. change (s ++ ")" :: d :: w2) with (s ++ [")"] ++ (d :: w2)) in E. rewrite app_assoc in E.
      destruct (app_cut _ _ _ _ _ E) as [(r & E1 & E2)|(r & E1 & E2)].
      * rewrite E2 in H2. apply blanks_suffix in H2. inversion H2; subst. discriminate.
      * destruct r as [|d' r]; cbn in E2; [injection E2 as <- _; inversion H2; subst; discriminate|]. destruct r; discriminate.
  - exfalso. destruct (atom_head s a Ha) as (c & t & -> & K). destruct w1 as [|d w1]; cbn in E.
    + injection E as -> _. discriminate.
    + injection E as -> _. inversion H1; subst. discriminate.
Qed.
(** A text that starts with a bracket which is closed by its last character. *)
Definition wrapped (s : list ascii) : Prop := exists m, s = "(" :: m ++ [")"] /\ closes 0 ("(" :: m) = false.
Lemma unbracket_ok : forall f s e, gram LOr s e -> tight s -> List.length s <= f ->
  let r := unbracket f s in gram LOr r e /\ tight r /\ ~ wrapped r /\ List.length r <= List.length s.
Proof.
  induction f as [|f IH]; intros s e H T L.
  - destruct s; [destruct (gram_ne _ _ _ H); auto|cbn in L; lia].
  - cbn [unbracket]. destruct s as [|c t] eqn:Es; [destruct (gram_ne _ _ _ H); auto|]. rewrite <- Es in *.
    destruct (Ascii.eqb c "(" && Ascii.eqb (last s " ") ")" && negb (closes 0 (removelast s))) eqn:E.
    + apply andb_true_iff in E as [E E3]. apply andb_true_iff in E as [E1 E2]. apply Ascii.eqb_eq in E1, E2. apply negb_true_iff in E3. subst c.
      destruct t as [|d t]; [subst s; discriminate E2|].
      assert (Et : d :: t = removelast (d :: t) ++ [")"]).
      { rewrite (app_removelast_last " " (ltac:(discriminate) : d :: t <> [])) at 1. f_equal. f_equal. rewrite Es in E2. exact E2. }
      set (m := removelast (d :: t)) in *.
      assert (Em : s = "(" :: m ++ [")"]) by (rewrite Es, Et; reflexivity).
      assert (Er : removelast s = "(" :: m) by (rewrite Em; change ("(" :: m ++ [")"]) with (("(" :: m) ++ [")"]); apply removelast_last).
      rewrite Er in E3. pose proof (removable_par _ _ _ H m Em E3) as Hm. destruct (gram_strip _ _ _ Hm) as (Gm & Tm & Lm).
      assert (Ls : List.length s = S (List.length m + 1)) by (rewrite Em; cbn [List.length]; rewrite app_length; reflexivity).
      destruct (IH (strip m) e Gm Tm ltac:(lia)) as (A & B & C & D). cbv zeta. split; auto. split; auto. split; auto. lia.
    + cbv zeta. split; auto. split; auto. split; auto. intros (m & Em & C).
      rewrite Em in Es. injection Es as <- Es. assert (Er : removelast s = "(" :: m) by (rewrite Em; change ("(" :: m ++ [")"]) with (("(" :: m) ++ [")"]); apply removelast_last).
      assert (El : last s " " = ")") by (rewrite Em; change ("(" :: m ++ [")"]) with (("(" :: m) ++ [")"]); apply last_last).
      rewrite El, Er, C in E. discriminate E.
Qed.
Lemma strip_selector_ok : forall s e, gram LOr s e -> exists r, strip_selector s = Some r /\ gram LOr r e /\ tight r /\ ~ wrapped r /\
  List.length r <= List.length s.
Proof.
  intros s e H. destruct (gram_strip _ _ _ H) as (G & T & L). unfold strip_selector.
  rewrite (proj2 (depth_zero (strip s)) (proj1 (gram_depth _ _ _ G))).
  destruct (unbracket_ok (List.length (strip s)) (strip s) e G T (le_n _)) as (A & B & C & D).
  exists (unbracket (List.length (strip s)) (strip s)). split; [reflexivity|]. split; [exact A|]. split; [exact B|]. split; [exact C|]. lia.
Qed.

(** ** Splitting at operators *)
Lemma split2_ne : forall c l, split2 c l <> [].
Proof.
  intros c l. assert (G : forall n l, List.length l <= n -> split2 c l <> []); [|apply (G _ l (le_n _))].
  induction n as [|n IH]; intros k L; destruct k as [|a k]; try discriminate; [cbn in L; lia|].
  destruct k as [|b k]; [discriminate|]. cbn [split2]. destruct (Ascii.eqb a c && Ascii.eqb b c); [discriminate|].
  destruct (split2 c (b :: k)) eqn:E; [|cbn [split2] in E; rewrite E; discriminate].
  exfalso. apply (IH (b :: k)); auto. cbn [List.length] in *. lia.
Qed.
Lemma split2_step : forall c a b l, split2 c (a :: b :: l) =
  if Ascii.eqb a c && Ascii.eqb b c then [] :: split2 c l
  else match split2 c (b :: l) with x :: r => (a :: x) :: r | [] => [[a]] end.
Proof. reflexivity. Qed.
Lemma split2_join : forall c l, joinl [c; c] (split2 c l) = l.
Proof.
  intros c l. assert (G : forall n l, List.length l <= n -> joinl [c; c] (split2 c l) = l); [|apply (G _ l (le_n _))].
  induction n as [|n IH]; intros k L; destruct k as [|a k]; try reflexivity; [cbn in L; lia|].
  destruct k as [|b k]; [reflexivity|]. rewrite split2_step. cbn [List.length] in L.
  destruct (Ascii.eqb_spec a c) as [->|Na]; [destruct (Ascii.eqb_spec b c) as [->|Nb]|]; cbn [andb].
  - pose proof (split2_ne c k) as N. pose proof (IH k ltac:(lia)) as E. destruct (split2 c k) as [|x r]; [congruence|].
    change (joinl [c; c] ([] :: x :: r)) with ([] ++ [c; c] ++ joinl [c; c] (x :: r)). rewrite E. reflexivity.
  - pose proof (split2_ne c (b :: k)) as N. pose proof (IH (b :: k) ltac:(cbn; lia)) as E. destruct (split2 c (b :: k)) as [|x r]; [congruence|].
    destruct r as [|y r]; [cbn [joinl] in *; rewrite E; reflexivity|].
    change (joinl [c; c] ((c :: x) :: y :: r)) with (c :: (x ++ [c; c] ++ joinl [c; c] (y :: r))).
    change (joinl [c; c] (x :: y :: r)) with (x ++ [c; c] ++ joinl [c; c] (y :: r)) in E. rewrite E. reflexivity.
  - pose proof (split2_ne c (b :: k)) as N. pose proof (IH (b :: k) ltac:(cbn; lia)) as E. destruct (split2 c (b :: k)) as [|x r]; [congruence|].
    destruct r as [|y r]; [cbn [joinl] in *; rewrite E; reflexivity|].
    change (joinl [c; c] ((a :: x) :: y :: r)) with (a :: (x ++ [c; c] ++ joinl [c; c] (y :: r))).
    change (joinl [c; c] (x :: y :: r)) with (x ++ [c; c] ++ joinl [c; c] (y :: r)) in E. rewrite E. reflexivity.
Qed.
Lemma split2_app : forall c a b, (forall t d, a = t ++ [d] -> d <> c) -> split2 c (a ++ c :: c :: b) = split2 c a ++ split2 c b.
Proof.
  intros c a b. assert (G : forall n a, List.length a <= n -> (forall t d, a = t ++ [d] -> d <> c) ->
    split2 c (a ++ c :: c :: b) = split2 c a ++ split2 c b); [|apply (G _ a (le_n _))].
  assert (Z : split2 c (c :: c :: b) = [] :: split2 c b) by (rewrite split2_step, Ascii.eqb_refl; reflexivity).
  induction n as [|n IH]; intros k L H; destruct k as [|x k]; try (cbn [app]; rewrite Z; reflexivity); [cbn in L; lia|].
  cbn [List.length] in L. destruct k as [|y k].
  - cbn [app]. rewrite split2_step. destruct (Ascii.eqb_spec x c) as [->|]; [destruct (H [] c eq_refl); auto|]. cbn [andb].
    rewrite Z. reflexivity.
  - cbn [app]. rewrite !split2_step. cbn [List.length] in L.
    destruct (Ascii.eqb x c && Ascii.eqb y c) eqn:E.
    + rewrite IH; [reflexivity|lia|]. intros t d ->. apply (H (x :: y :: t) d). reflexivity.
    + change (y :: k ++ c :: c :: b) with ((y :: k) ++ c :: c :: b). rewrite IH; [|cbn [List.length]; lia|].
      * pose proof (split2_ne c (y :: k)). destruct (split2 c (y :: k)); [congruence|]. reflexivity.
      * intros t d Et. apply (H (x :: t) d). rewrite Et. reflexivity.
Qed.
Lemma joinl_app : forall sep p q, p <> [] -> q <> [] -> joinl sep (p ++ q) = joinl sep p ++ sep ++ joinl sep q.
Proof.
  induction p as [|x p IH]; intros q N M; [congruence|]. destruct p as [|y p].
  - destruct q; [congruence|]. reflexivity.
  - change (joinl sep ((x :: y :: p) ++ q)) with (x ++ sep ++ joinl sep ((y :: p) ++ q)). rewrite IH by (auto; discriminate).
    change (joinl sep (x :: y :: p)) with (x ++ sep ++ joinl sep (y :: p)). rewrite <- !app_assoc. reflexivity.
Qed.
Lemma merge_one : forall op ps cur r, ps <> [] ->
  (forall p q, ps = p ++ q -> p <> [] -> q <> [] -> depth (cur ++ joinl op p) <> 0%Z) ->
  depth (cur ++ joinl op ps) = 0%Z -> merge op cur (ps ++ r) = (cur ++ joinl op ps) :: merge op [] r.
Proof.
  intros op ps. induction ps as [|e ps IH]; intros cur r N H D; [congruence|]. cbn [app merge].
  destruct ps as [|e2 ps].
  - cbn [joinl app] in *. rewrite (proj2 (depth_zero _) D). reflexivity.
  - destruct (count "(" (cur ++ e) =? count ")" (cur ++ e)) eqn:E.
    + exfalso. apply depth_zero in E. apply (H [e] (e2 :: ps)); auto; discriminate.
    + rewrite IH.
      * change (joinl op (e :: e2 :: ps)) with (e ++ op ++ joinl op (e2 :: ps)). rewrite <- !app_assoc. reflexivity.
      * discriminate.
      * intros p q Ep Np Nq. pose proof (H (e :: p) q) as Hp. rewrite Ep in Hp. specialize (Hp eq_refl ltac:(discriminate) Nq).
        destruct p; [congruence|]. change (joinl op (e :: l :: p)) with (e ++ op ++ joinl op (l :: p)) in Hp. rewrite <- !app_assoc. exact Hp.
      * change (joinl op (e :: e2 :: ps)) with (e ++ op ++ joinl op (e2 :: ps)) in D. rewrite <- !app_assoc. exact D.
Qed.
(** Pieces with no operator outside of brackets. *)
Lemma split_pieces : forall c ps, ps <> [] ->
  Forall (fun s => depth s = 0%Z /\ (forall x y, s = x ++ c :: y -> depth x <> 0%Z) /\ (forall t d, s = t ++ [d] -> d <> c)) ps ->
  split_selector c (joinl [c; c] ps) = ps.
Proof.
  intros c ps N F. unfold split_selector. induction F as [|s ps (D & P & Q) F IH]; [congruence|].
  assert (M : forall r, merge [c; c] [] (split2 c s ++ r) = s :: merge [c; c] [] r).
  { intros r. rewrite merge_one; rewrite ?split2_join; auto.
    - apply split2_ne.
    - intros p q E Np Nq. cbn [app]. apply (P (joinl [c; c] p) (c :: joinl [c; c] q)).
      rewrite <- (split2_join c s), E, joinl_app by auto. reflexivity. }
  destruct ps as [|t ps].
  - cbn [joinl]. rewrite <- (app_nil_r (split2 c s)). apply M.
  - change (joinl [c; c] (s :: t :: ps)) with (s ++ c :: c :: joinl [c; c] (t :: ps)). rewrite split2_app by auto. rewrite M.
    f_equal. apply IH. discriminate.
Qed.

(** ** The pieces of a grammatical text *)
Fixpoint fold_expr (op : sexpr -> sexpr -> sexpr) (e : sexpr) (es : list sexpr) : sexpr :=
  match es with [] => e | f :: es' => op e (fold_expr op f es') end.
Definition pieces (l : level) (c : ascii) (op : sexpr -> sexpr -> sexpr) (s : list ascii) (e : sexpr) : Prop :=
  exists s0 e0 ps, Forall (fun p => gram l (fst p) (snd p)) ((s0, e0) :: ps) /\ s = joinl [c; c] (s0 :: map fst ps) /\
                   e = fold_expr op e0 (map snd ps).
Lemma or_pieces : forall s e, gram LOr s e -> pieces LAnd "|" EOr s e.
Proof.
  intros s e H. remember LOr as l eqn:El. induction H as [s e H _|s e t f H _ H2 IH|s e H _|s e t f H _ H2 IH|w s e Hw H _|w1 w2 s e H1 H2 H _|w1 w2 s a H1 H2 Ha]; try discriminate.
  - exists s, e, []. split; [constructor; [exact H|constructor]|]. auto.
  - destruct (IH El) as (s0 & e0 & ps & F & -> & ->). exists s, e, ((s0, e0) :: ps). split; [constructor; auto|]. split; reflexivity.
Qed.
Lemma and_pieces : forall s e, gram LAnd s e -> pieces LUn "&" EAnd s e.
Proof.
  intros s e H. remember LAnd as l eqn:El. induction H as [s e H _|s e t f H _ H2 IH|s e H _|s e t f H _ H2 IH|w s e Hw H _|w1 w2 s e H1 H2 H _|w1 w2 s a H1 H2 Ha]; try discriminate.
  - exists s, e, []. split; [constructor; [exact H|constructor]|]. auto.
  - destruct (IH El) as (s0 & e0 & ps & F & -> & ->). exists s, e, ((s0, e0) :: ps). split; [constructor; auto|]. split; reflexivity.
Qed.
Lemma or_split : forall s0 (ps : list (list ascii * sexpr)), Forall (fun p => gram LAnd (fst p) (snd p)) (s0 :: ps) ->
  split_selector "|" (joinl ["|"; "|"] (fst s0 :: map fst ps)) = fst s0 :: map fst ps.
Proof.
  intros s0 ps F. apply split_pieces; [discriminate|]. change (fst s0 :: map fst ps) with (map fst (s0 :: ps)).
  rewrite Forall_map. eapply Forall_impl; [|exact F]. intros [s e] H. cbn [fst snd] in *. split; [apply (gram_depth _ _ _ H)|]. split.
  - intros x y E. destruct (gram_ops _ _ _ H) as [A _]. pose proof (A ltac:(discriminate) x y E). lia.
  - intros t d E. eapply gram_last; eauto.
Qed.
Lemma and_split : forall s0 (ps : list (list ascii * sexpr)), Forall (fun p => gram LUn (fst p) (snd p)) (s0 :: ps) ->
  split_selector "&" (joinl ["&"; "&"] (fst s0 :: map fst ps)) = fst s0 :: map fst ps.
Proof.
  intros s0 ps F. apply split_pieces; [discriminate|]. change (fst s0 :: map fst ps) with (map fst (s0 :: ps)).
  rewrite Forall_map. eapply Forall_impl; [|exact F]. intros [s e] H. cbn [fst snd] in *. split; [apply (gram_depth _ _ _ H)|]. split.
  - intros x y E. destruct (gram_ops _ _ _ H) as [_ A]. pose proof (A eq_refl x y E). lia.
  - intros t d E. eapply gram_last; eauto.
Qed.
Lemma joinl_len : forall sep l x, In x l -> (1 < List.length l -> 0 < List.length sep -> List.length x < List.length (joinl sep l)) /\
  List.length x <= List.length (joinl sep l).
Proof.
  induction l as [|y l IH]; intros x H; [destruct H|]. destruct l as [|z l].
  - destruct H as [->|[]]. cbn. split; lia.
  - change (joinl sep (y :: z :: l)) with (y ++ sep ++ joinl sep (z :: l)). rewrite !app_length. destruct H as [->|H].
    + split; lia.
    + destruct (IH x H) as [_ B]. split; lia.
Qed.
(** What a unary text is after stripping and removing brackets. *)
Lemma unary_cases : forall s e, gram LUn s e -> tight s -> ~ wrapped s ->
  (exists t f, s = "!" :: t /\ e = ENot f /\ gram LUn t f) \/
  (exists a, e = EAtom a /\ atom_text blanks gap s a).
Proof.
  intros s e H T Nw. inversion H as [| | | |w s' e' Hw Hs E1 E2 E3|w1 w2 s' e' H1 H2 Hs E1 E2 E3|w1 w2 s' a H1 H2 Ha E1 E2 E3]; subst;
    destruct T as [Hh (t0 & c0 & E0 & Hc0)].
  - left. destruct w as [|c w]; [exists s', e'; auto|]. inversion Hw; subst. cbn in Hh. congruence.
  - exfalso. apply Nw. destruct w1 as [|c w1]; [|inversion H1; subst; cbn in Hh; congruence]. destruct w2 as [|d w2].
    + exists s'. split; auto. apply not_true_is_false. intros C. apply closes_spec in C as (a & b & E & Na & D).
      destruct a as [|c a]; [congruence|]. cbn in E. injection E as <- E. cbn [depth] in D. change (bump "(") with 1%Z in D.
      pose proof (proj2 (gram_depth _ _ _ Hs) a b E). lia.
    + exfalso. change ([] ++ "(" :: s' ++ ")" :: d :: w2) with (("(" :: s') ++ [")"] ++ (d :: w2)) in E0.
      rewrite app_assoc in E0. destruct (app_cut _ _ _ _ _ E0) as [(r & F1 & F2)|(r & F1 & F2)].
      * rewrite F2 in H2. apply blanks_suffix in H2. inversion H2; subst. congruence.
      * destruct r as [|d' r]; cbn in F2; [injection F2 as -> _; inversion H2; subst; congruence|]. destruct r; discriminate.
  - right. destruct (atom_head s' a Ha) as (c & t & Es & K). destruct w1 as [|c1 w1]; [|inversion H1; subst; cbn in Hh; congruence].
    destruct w2 as [|d w2]; [cbn [app]; rewrite app_nil_r; eauto|].
    exfalso. cbn [app] in E0. destruct (app_cut _ _ _ _ _ E0) as [(r & F1 & F2)|(r & F1 & F2)].
    + rewrite F2 in H2. apply blanks_suffix in H2. inversion H2; subst. congruence.
    + destruct r as [|d' r]; cbn in F2; [injection F2 as -> _; inversion H2; subst; congruence|]. destruct r; discriminate.
Qed.
