(** * What CalicoSelectorModel.v computes for a grammatical selector. *)
From Coq Require Import ZArith List Bool Arith Lia String Ascii.
From Verif Require Import IntervalModel TextModel PortProtoModel PeerModel PeerFacts PeerSetFacts PolicyModel YamlModel ClusterModel
                          K8sParserModel SelectorFacts PropSelectors CalicoSelectorModel CalicoSelectorFacts CalicoSelectorGram.
Import ListNotations.
Local Open Scope char_scope.
Local Open Scope list_scope.
Local Open Scope nat_scope.

(** ** Occurrences of global() *)
Lemma starts_spec : forall w l, starts w l = true <-> exists b, l = w ++ b.
Proof.
  induction w as [|c w IH]; intros l; cbn [starts].
  - split; intros _; [exists l; reflexivity|destruct l; reflexivity].
  - destruct l as [|d l]; [split; [discriminate|intros (b & E); discriminate]|]. rewrite andb_true_iff, IH. split.
    + intros [E (b & ->)]. apply Ascii.eqb_eq in E. subst. exists b. reflexivity.
    + intros (b & E). cbn in E. injection E as -> ->. split; [apply Ascii.eqb_refl|eauto].
Qed.
Lemma occurs_spec : forall w l, occurs w l = true <-> exists a b, l = a ++ w ++ b.
Proof.
  intros w. induction l as [|c l IH]; cbn [occurs]; rewrite orb_true_iff, starts_spec.
  - split.
    + intros [(b & E)|X]; [exists [], b; auto|discriminate].
    + intros (a & b & E). destruct a; [left; eauto|discriminate].
  - rewrite IH. split.
    + intros [(b & E)|(a & b & ->)]; [exists [], b; auto|exists (c :: a), b; auto].
    + intros (a & b & E). destruct a as [|d a]; [left; eauto|]. cbn in E. injection E as <- ->. right; eauto.
Qed.
Lemma cut_word : forall (a w b s t : list ascii) c, a ++ w ++ b = s ++ c :: t -> ~ In c w ->
  (exists r, s = a ++ w ++ r) \/ (exists r, t = r ++ w ++ b).
Proof.
  intros a w b s t c E N. symmetry in E. destruct (app_mid _ _ _ _ _ _ E) as [(r & -> & ->)|(r & -> & E2)]; [right; eauto|].
  destruct (app_mid _ _ _ _ _ _ (eq_sym E2)) as [(q & -> & _)|(q & -> & ->)].
  - destruct N. apply in_or_app. right; left; auto.
  - left. exists q. reflexivity.
Qed.
Local Notation globl := (text "global").
Lemma blanks_no_global : forall w a r, blanks w -> w = a ++ globl ++ r -> False.
Proof.
  intros w a r H E. subst w. apply (blanks_not _ "g" H); [|reflexivity]. apply in_or_app. right. left. reflexivity.
Qed.
Lemma global_text : forall l s e, gram l s e -> (exists a b, s = a ++ text "global()" ++ b) <-> mentions_global e = true.
Proof.
  assert (Gl : forall b, text "global()" ++ b = globl ++ "(" :: ")" :: b) by reflexivity.
  assert (two : forall c s t, (c = "|" \/ c = "&") -> (exists a b, s ++ c :: c :: t = a ++ text "global()" ++ b) <->
                (exists a b, s = a ++ text "global()" ++ b) \/ (exists a b, t = a ++ text "global()" ++ b)).
  { intros c s t Hc. split.
    - intros (a & b & E). assert (Nc : ~ In c (text "global()")) by (apply nin; destruct Hc as [->| ->]; reflexivity).
      destruct (cut_word a (text "global()") b s (c :: t) c (eq_sym E) Nc) as [(r & ->)|(r & E2)].
      + left. exists a, r. reflexivity.
      + right. destruct r as [|d r]; [destruct Hc as [->| ->]; discriminate E2|]. cbn [app] in E2. injection E2 as _ E2. exists r, b. exact E2.
    - intros [(a & b & ->)|(a & b & ->)].
      + exists a, (b ++ c :: c :: t). rewrite <- !app_assoc. reflexivity.
      + exists (s ++ c :: c :: a), b. rewrite <- !app_assoc. reflexivity. }
  induction 1 as [s e _ IH|s e t f _ IH1 _ IH2|s e _ IH|s e t f _ IH1 _ IH2|w s e Hw H IH|w1 w2 s e H1 H2 H IH|w1 w2 s a0 H1 H2 Ha]; auto.
  - rewrite two by auto. cbn [mentions_global]. rewrite orb_true_iff. tauto.
  - rewrite two by auto. cbn [mentions_global]. rewrite orb_true_iff. tauto.
  - cbn [mentions_global]. rewrite <- IH. split.
    + intros (a & b & E). destruct (cut_word a (text "global()") b w s "!" (eq_sym E) (nin "!" (text "global()") eq_refl)) as [(r & E2)|(r & ->)]; [|exists r, b; reflexivity].
      exfalso. change (text "global()" ++ r) with (globl ++ ("(" :: ")" :: r)) in E2. exact (blanks_no_global w a _ Hw E2).
    + intros (a & b & ->). exists (w ++ "!" :: a), b. rewrite <- app_assoc. reflexivity.
  - rewrite <- IH. split.
    + intros (a & b & E). rewrite Gl, app_assoc in E. symmetry in E.
      destruct (app_mid _ _ _ _ _ _ E) as [(r & E1 & E2)|(a1 & E1 & E2)].
      * exfalso. subst w1. eapply (blanks_not _ "(" H1); [|reflexivity]. apply in_or_app. right; left; auto.
      * destruct a1 as [|c a1].
        { exfalso. rewrite app_nil_r in E1. apply (blanks_no_global w1 a [] H1). rewrite app_nil_r. auto. }
        cbn [app] in E2. injection E2 as <- E2. symmetry in E2. destruct (app_mid _ _ _ _ _ _ E2) as [(r & E3 & E4)|(a2 & -> & E4)].
        -- destruct r as [|d r].
           { exfalso. destruct (gram_depth _ _ _ H) as [D P]. rewrite E3, depth_app in D. cbn in D. pose proof (P _ _ E3). unfold bump in D. cbn in D. lia. }
           cbn [app] in E4. injection E4 as <- E4. subst b s.
           assert (E6 : a ++ globl ++ [] = w1 ++ "(" :: a1) by (rewrite app_nil_r; auto).
           destruct (cut_word a globl [] w1 a1 "(" E6 (nin "(" globl eq_refl)) as [(q & E5)|(q & E5)].
           ++ exfalso. exact (blanks_no_global w1 a q H1 E5).
           ++ rewrite app_nil_r in E5. subst a1. exists q, r. rewrite <- app_assoc. reflexivity.
        -- exfalso. destruct a2 as [|d a2]; [discriminate E4|]. cbn [app] in E4. injection E4 as <- E4. subst w2.
           eapply (blanks_not _ "(" H2); [|reflexivity]. apply in_or_app. right; left; auto.
    + intros (a & b & ->). exists (w1 ++ "(" :: a), (b ++ ")" :: w2). rewrite <- !app_assoc. cbn [app]. repeat rewrite <- app_assoc. reflexivity.
  - split.
    + intros (a & b & E).
      assert (Ig : In "g" s).
      { assert (I : In "g" (w1 ++ s ++ w2)) by (rewrite E; apply in_or_app; right; left; auto).
        apply in_app_iff in I as [I|I]; [destruct (blanks_not _ _ H1 I eq_refl)|]. apply in_app_iff in I as [I|I]; auto.
        destruct (blanks_not _ _ H2 I eq_refl). }
      assert (Ip : In "(" s).
      { assert (I : In "(" (w1 ++ s ++ w2)) by (rewrite E; apply in_or_app; right; apply in_or_app; left; cbn; tauto).
        apply in_app_iff in I as [I|I]; [destruct (blanks_not _ _ H1 I eq_refl)|]. apply in_app_iff in I as [I|I]; auto.
        destruct (blanks_not _ _ H2 I eq_refl). }
      assert (Hc : ~ all_calm s) by (intros C; unfold all_calm in C; rewrite Forall_forall in C; apply C in Ip; discriminate Ip).
      cbn [mentions_global]. destruct a0; auto; exfalso; inversion Ha; subst.
      3-9: destruct (atom_shape _ _ Ha) as [C|(p & m & E0 & _)]; [auto|].
      3-9: apply (f_equal (fun l => last l " ")) in E0; unfold quote in E0;
           repeat rewrite ?app_comm_cons, ?app_assoc in E0; rewrite !last_last in E0; discriminate E0.
      * cbn in Ig. intuition discriminate.
      * assert (E' : (a ++ globl) ++ "(" :: ")" :: b = (w1 ++ text "has") ++ "(" :: text k ++ ")" :: w2).
        { rewrite Gl in E. rewrite <- !app_assoc. etransitivity; [symmetry; exact E|]. rewrite <- !app_assoc. reflexivity. }
        clear E. rename E' into E.
        match goal with W : word k |- _ => rename W into H0 end.
        assert (Nk : forall c, In c (text k) -> key_char c = true) by (destruct H0 as [_ F]; rewrite Forall_forall in F; auto).
        destruct (app_mid _ _ _ _ _ _ E) as [(r & E1 & E2)|(a1 & E1 & E2)].
        -- assert (I : In "(" (w1 ++ text "has")) by (rewrite E1; apply in_or_app; right; left; auto).
           apply in_app_iff in I as [I|I]; [exact (blanks_not _ _ H1 I eq_refl)|]. cbn in I. intuition discriminate.
        -- destruct a1 as [|c a1]; cbn [app] in E2.
           ++ injection E2 as E2. destruct H0 as [Nn _]. destruct k as [|c k]; [congruence|]. cbn in E2. assert (X : c = ")") by congruence.
              subst c. specialize (Nk ")" (or_introl eq_refl)). discriminate Nk.
           ++ injection E2 as <- E2. assert (I : In "(" (text k ++ ")" :: w2)) by (rewrite E2; apply in_or_app; right; left; auto).
              apply in_app_iff in I as [I|[I|I]]; [apply Nk in I; discriminate I|discriminate I|exact (blanks_not _ _ H2 I eq_refl)].
    + intros M. destruct a0; try discriminate M. inversion Ha; subst. exists w1, w2. reflexivity.
Qed.
Lemma occurs_global : forall l s e, gram l s e -> occurs (text "global()") s = mentions_global e.
Proof.
  intros l s e H. apply eq_true_iff_eq. rewrite occurs_spec. apply (global_text l s e H).
Qed.

(** ** Text predicates of the label queries *)
Lemma prefix_spec : forall w s, prefix w s = true <-> exists b, s = (w ++ b)%string.
Proof.
  induction w as [|c w IH]; intros s.
  - split; [intros _; exists s; reflexivity|]. intros _. destruct s; reflexivity.
  - destruct s as [|d s]; cbn [prefix].
    + split; [discriminate|]. intros (b & E). discriminate.
    + destruct (ascii_dec c d) as [->|N].
      * rewrite IH. split; intros (b & E); exists b; cbn in *; congruence.
      * split; [discriminate|]. intros (b & E). cbn in E. congruence.
Qed.
Lemma contains_spec : forall w s, contains_str w s = true <-> exists a b, s = (a ++ w ++ b)%string.
Proof.
  intros w. induction s as [|c s IH]; cbn [contains_str]; rewrite orb_true_iff, prefix_spec.
  - split.
    + intros [(b & E)|X]; [exists ""%string, b; auto|discriminate].
    + intros (a & b & E). destruct a; [left; eauto|discriminate].
  - rewrite IH. split.
    + intros [(b & E)|(a & b & ->)]; [exists ""%string, b; auto|exists (String c a), b; auto].
    + intros (a & b & E). destruct a as [|d a]; [left; eauto|]. cbn in E. injection E as <- ->. right; eauto.
Qed.
Lemma suffix_spec : forall w s, suffix_of w s = true <-> exists a, s = (a ++ w)%string.
Proof.
  intros w. induction s as [|c s IH]; cbn [suffix_of]; rewrite orb_true_iff, String.eqb_eq.
  - split.
    + intros [->|X]; [exists ""%string; auto|discriminate].
    + intros (a & E). destruct a; [left; auto|discriminate].
  - rewrite IH. split.
    + intros [->|(a & ->)]; [exists ""%string; auto|exists (String c a); auto].
    + intros (a & E). destruct a as [|d a]; [left; auto|]. cbn in E. injection E as <- ->. right; eauto.
Qed.
Lemma get_pred : forall (P : string -> bool) l k, P ""%string = false ->
  P (get_or_empty l k) = true <-> exists v, assoc_s k l = Some v /\ P v = true.
Proof.
  intros P l k E. unfold get_or_empty. destruct (assoc_s k l) as [v|].
  - split; [eauto|]. intros (w & E1 & H). congruence.
  - rewrite E. split; [discriminate|]. intros (w & E1 & _). discriminate.
Qed.
Lemma word_ne : forall w, word w -> contains_str w "" = false /\ prefix w "" = false /\ suffix_of w "" = false.
Proof. intros w [N _]. destruct w; [congruence|]. repeat split; reflexivity. Qed.

Section Sets.
Context (cl : cluster) (Hcl : cluster_ok cl).
Let Hp : plain (cl_peers cl) := cluster_plain cl Hcl.
Lemma group_of_In : forall g q, In q (group_of cl g) <-> In q (cl_peers cl) /\ is_dns q = false /\ (g = true \/ is_hep q = false).
Proof.
  intros g q. unfold group_of. rewrite select_In. rewrite andb_true_iff, orb_true_iff, !negb_true_iff. tauto.
Qed.
Definition in_scope (ns : option string) (q : peer) : Prop :=
  In q (cl_peers cl) /\ match ns with None => is_dns q = false | Some n => cl_ns cl q = Some n end.
Lemma namespace_pods_In : forall ns q, In q (namespace_pods cl ns) <-> in_scope ns q.
Proof.
  intros [n|] q; unfold in_scope.
  - cbn [namespace_pods]. rewrite select_In. cbn [ns_is]. destruct (cl_ns cl q) as [m|].
    + rewrite String.eqb_eq. intuition congruence.
    + intuition discriminate.
  - apply all_group_In.
Qed.
Lemma ns_pods_plain : forall ns, plain (namespace_pods cl ns).
Proof. intros ns q H. apply namespace_pods_In in H as [H _]. auto. Qed.
Lemma group_plain : forall g, plain (group_of cl g).
Proof. intros g q H. apply group_of_In in H as [H _]. auto. Qed.
Lemma scope_not_dns : forall ns q, in_scope ns q -> is_dns q = false.
Proof. intros [n|] q [H E]; auto. eapply in_ns_not_dns; eauto. Qed.

(** One label query. *)
Lemma in_map_untext : forall vs v, In v (map untext (map text vs)) <-> In v vs.
Proof. intros vs v. rewrite map_map. rewrite (map_ext _ (fun x => x)) by apply untext_text. rewrite map_id. tauto. Qed.
Definition of_action (a : faction) (k : string) (vs : list string) (has : string -> string -> Prop) : Prop :=
  match a with
  | FIn => exists v, In v vs /\ has k v
  | FNotIn => ~ exists v, In v vs /\ has k v
  | FContain => exists a b, has k (a ++ first vs ++ b)%string
  | FStartWith => exists b, has k (first vs ++ b)%string
  | FEndWith => exists a, has k (a ++ first vs)%string
  end.
Lemma peers_with_label_In : forall k vs a q, word (first vs) ->
  In q (peers_with_label cl k vs a None) <-> In q (cl_peers cl) /\ of_action a k vs (pod_has cl q).
Proof.
  intros k vs a q Hw. unfold peers_with_label. rewrite select_In. cbn [ns_is andb]. apply and_iff_compat_l.
  destruct (word_ne _ Hw) as (W1 & W2 & W3). unfold pod_has. destruct a; cbn [of_action].
  - rewrite orb_true_iff, !get_in_spec. split.
    + intros [(v & E & I)|(v & E & I)]; exists v; auto.
    + intros (v & I & [E|E]); [left|right]; eauto.
  - rewrite andb_true_iff, !negb_true_iff. split.
    + intros [A B] (v & I & [E|E]).
      * assert (get_in (cl_labels cl q) k vs = true) by (apply get_in_spec; eauto). congruence.
      * assert (get_in (cl_extra cl q) k vs = true) by (apply get_in_spec; eauto). congruence.
    + intros N. split; apply not_true_is_false; intros T; apply get_in_spec in T as (v & E & I); apply N; eauto.
  - rewrite orb_true_iff, !(get_pred (contains_str (first vs))) by auto. split.
    + intros [(v & E & C)|(v & E & C)]; apply contains_spec in C as (a & b & ->); eauto.
    + intros (a & b & [E|E]); [left|right]; eexists; (split; [exact E|]); apply contains_spec; eauto.
  - rewrite orb_true_iff, !(get_pred (prefix (first vs))) by auto. split.
    + intros [(v & E & C)|(v & E & C)]; apply prefix_spec in C as (b & ->); eauto.
    + intros (b & [E|E]); [left|right]; eexists; (split; [exact E|]); apply prefix_spec; eauto.
  - rewrite orb_true_iff, !(get_pred (suffix_of (first vs))) by auto. split.
    + intros [(v & E & C)|(v & E & C)]; apply suffix_spec in C as (a & ->); eauto.
    + intros (a & [E|E]); [left|right]; eexists; (split; [exact E|]); apply suffix_spec; eauto.
Qed.
Lemma smem_empty : forall vs, Forall word vs -> smem ""%string vs = false.
Proof.
  intros vs F. apply not_true_is_false. intros H. apply smem_In in H. rewrite Forall_forall in F. apply F in H as [N _]. congruence.
Qed.
Lemma ns_pods_with_label_In : forall k vs a q, word (first vs) -> Forall word vs ->
  In q (ns_pods_with_label cl k vs a) <-> In q (cl_peers cl) /\ cl_ns cl q <> None /\ of_action a k vs (ns_has cl q).
Proof.
  intros k vs a q Hw Fw. unfold ns_pods_with_label. rewrite select_In. apply and_iff_compat_l.
  destruct (word_ne _ Hw) as (W1 & W2 & W3). pose proof (smem_empty vs Fw) as W4. unfold ns_has. destruct (cl_ns cl q) as [n|].
  2:{ split; [discriminate|]. intros [N _]. congruence. }
  assert (X : forall P : string -> Prop, (exists n0, Some n = Some n0 /\ P n0) <-> P n).
  { intros P. split; [intros (m & E & H); injection E as <-; auto|eauto]. }
  assert (Y : Some n <> None) by discriminate.
  destruct a; cbn [of_action].
  - rewrite (get_pred (fun v => smem v vs)) by auto. split.
    + intros (v & E & I). split; auto. exists v. rewrite X. apply smem_In in I. auto.
    + intros [_ (v & I & E)]. rewrite X in E. exists v. split; auto. apply smem_In. auto.
  - rewrite negb_true_iff. split.
    + intros H. split; auto. intros (v & I & E). rewrite X in E.
      assert (smem (get_or_empty (cl_nslabels cl n) k) vs = true); [|congruence].
      apply (get_pred (fun v => smem v vs)); auto. exists v. split; auto. apply smem_In. auto.
    + intros [_ N]. apply not_true_is_false. intros T. apply (get_pred (fun v => smem v vs)) in T as (v & E & I); auto.
      apply N. exists v. rewrite X. apply smem_In in I. auto.
  - rewrite (get_pred (contains_str (first vs))) by auto. split.
    + intros (v & E & C). split; auto. apply contains_spec in C as (a & b & ->). exists a, b. rewrite X. auto.
    + intros [_ (a & b & E)]. rewrite X in E. eexists; (split; [exact E|]); apply contains_spec; eauto.
  - rewrite (get_pred (prefix (first vs))) by auto. split.
    + intros (v & E & C). split; auto. apply prefix_spec in C as (b & ->). exists b. rewrite X. auto.
    + intros [_ (b & E)]. rewrite X in E. eexists; (split; [exact E|]); apply prefix_spec; eauto.
  - rewrite (get_pred (suffix_of (first vs))) by auto. split.
    + intros (v & E & C). split; auto. apply suffix_spec in C as (a & ->). exists a. rewrite X. auto.
    + intros [_ (a & E)]. rewrite X in E. eexists; (split; [exact E|]); apply suffix_spec; eauto.
Qed.
Lemma peers_with_key_In : forall ns k q, In q (peers_with_key cl ns k false) <->
  In q (cl_peers cl) /\ ns_is cl ns q = true /\ exists v, pod_has cl q k v.
Proof.
  intros ns k q. unfold peers_with_key. rewrite select_In, andb_true_iff, xorb_false_r, orb_true_iff, !has_key_spec.
  unfold pod_has. split; intros (A & B & C); (split; [auto|split; auto]).
  - destruct C as [(v & E)|(v & E)]; eauto.
  - destruct C as (v & [E|E]); eauto.
Qed.
Lemma ns_pods_with_key_In : forall k q, In q (ns_pods_with_key cl k false) <->
  In q (cl_peers cl) /\ cl_ns cl q <> None /\ exists v, ns_has cl q k v.
Proof.
  intros k q. unfold ns_pods_with_key, ns_has. rewrite select_In. destruct (cl_ns cl q) as [n|].
  - rewrite xorb_false_r, has_key_spec. split.
    + intros (A & v & E). split; auto. split; [discriminate|]. exists v. eauto.
    + intros (A & _ & v & m & E & H). injection E as <-. eauto.
  - split; [intros [_ X]; discriminate|]. intros (_ & N & _). congruence.
Qed.

Lemma vals_words : forall W t vs, vals_text W t vs -> Forall word vs /\ word (first vs).
Proof. intros W t vs. induction 1 as [|w1 w2 v t vs H1 H2 Hv Ht [A B]]; split; auto. Qed.
Definition atom_words (a : atom) : Prop :=
  match a with
  | AAll | AGlobal | AHas _ => True
  | AEq _ v | ANeq _ v | AContains _ v | AStarts _ v | AEnds _ v => word v
  | AIn _ vs | ANotIn _ vs => Forall word vs /\ word (first vs)
  end.
Lemma atom_text_words : forall W G l a, atom_text W G l a -> atom_words a.
Proof. intros W G l a H. destruct H; cbn [atom_words]; auto; eapply vals_words; eauto. Qed.

(** ** Atoms *)
Lemma atom_pods : forall ns l a, atom_text blanks gap l a -> a <> AGlobal ->
  exists s, parse_atom cl ns false l = Some s /\ plain s /\ forall q, In q s <-> in_scope ns q /\ sat_atom (pod_has cl q) a.
Proof.
  intros ns l a H Na. unfold parse_atom. cbn [andb].
  rewrite <- (app_nil_r l), <- (app_nil_l (l ++ [])). rewrite (strip_tight [] l []); [|constructor|constructor|eapply atom_tight; eauto].
  pose proof (atom_recognised _ _ (squeeze_atom _ _ H)) as R. pose proof (atom_text_words _ _ _ _ H) as Ws. set (e := squeeze l) in *.
  assert (Q : forall k vs act, word (first vs) ->
    exists s, ps_inter (namespace_pods cl ns) (peers_with_label cl (untext (text k)) (map untext (map text vs)) act None) = Some s /\ plain s /\
              forall q, In q s <-> in_scope ns q /\ of_action act k vs (pod_has cl q)).
  { intros k vs act Hw. rewrite untext_text, map_map, (map_ext _ (fun x => x)), map_id by apply untext_text.
    destruct (plain_inter _ (peers_with_label cl k vs act None) (ns_pods_plain ns) (select_plain cl Hp _)) as (s & Es & Ps & Is).
    exists s. split; auto. split; auto. intros q. rewrite Is, namespace_pods_In, peers_with_label_In by auto. unfold in_scope. tauto. }
  assert (Eq : forall P Q : Prop, (P <-> Q) -> (Q <-> P)) by (intros; tauto).
  destruct a as [| |k|k v|k v|k vs|k vs|k v|k v|k v]; cbn [recognised] in R; try congruence.
  - rewrite R. destruct (list_eq_dec ascii_dec (text "all()") (text "all()")); [|congruence].
    eexists. split; [reflexivity|]. split; [apply ns_pods_plain|]. intros q. rewrite namespace_pods_In. cbn [sat_atom]. tauto.
  - destruct R as (R1 & _ & R2). destruct (list_eq_dec ascii_dec e (text "all()")) as [Ea|Na1]; [congruence|]. rewrite R2, untext_text.
    destruct (plain_inter _ (peers_with_key cl ns k false) (ns_pods_plain ns) (select_plain cl Hp _)) as (s & Es & Ps & Is).
    exists s. split; auto. split; auto. intros q. rewrite Is, namespace_pods_In, peers_with_key_In. cbn [sat_atom].
    split; [tauto|]. intros [S X]. split; auto. split; [apply S|]. split; auto. destruct ns as [n|]; auto. destruct S as [_ S].
    unfold ns_is. rewrite S. apply String.eqb_refl.
  - destruct R as (R1 & _ & R2 & R3). destruct (list_eq_dec ascii_dec e (text "all()")) as [Ea|Na1]; [congruence|]. rewrite R2, R3.
    destruct (Q k [v] FIn Ws) as (s & Es & Ps & Is). exists s. split; auto. split; auto. intros q. rewrite Is. cbn.
    split; [intros (A & w & [->|[]] & B); auto|intros [A B]; eauto].
  - destruct R as (R1 & _ & R2 & R3). destruct (list_eq_dec ascii_dec e (text "all()")) as [Ea|Na1]; [congruence|]. rewrite R2, R3.
    destruct (Q k [v] FNotIn Ws) as (s & Es & Ps & Is). exists s. split; auto. split; auto. intros q. rewrite Is. cbn.
    apply and_iff_compat_l. split; intros N X; apply N; [eauto|]. destruct X as (w & [->|[]] & B). auto.
  - destruct R as (R1 & _ & R2 & R3 & R4 & R5). destruct (list_eq_dec ascii_dec e (text "all()")) as [Ea|Na1]; [congruence|].
    rewrite R2, R3, R4. fold (values_in e). rewrite R5. apply (Q k vs FIn). apply Ws.
  - destruct R as (R1 & _ & R2 & R3 & R4 & R5). destruct (list_eq_dec ascii_dec e (text "all()")) as [Ea|Na1]; [congruence|].
    rewrite R2, R3, R4. fold (values_in e). rewrite R5. apply (Q k vs FNotIn). apply Ws.
  - destruct R as (R1 & _ & R2 & R3 & R4 & R5). destruct (list_eq_dec ascii_dec e (text "all()")) as [Ea|Na1]; [congruence|]. rewrite R2, R3, R4, R5.
    apply (Q k [v] FContain Ws).
  - destruct R as (R1 & _ & R2 & R3 & R4 & R5). destruct (list_eq_dec ascii_dec e (text "all()")) as [Ea|Na1]; [congruence|]. rewrite R2, R3, R4, R5.
    apply (Q k [v] FStartWith Ws).
  - destruct R as (R1 & _ & R2 & R3 & R4 & R5). destruct (list_eq_dec ascii_dec e (text "all()")) as [Ea|Na1]; [congruence|]. rewrite R2, R3, R4, R5.
    apply (Q k [v] FEndWith Ws).
Qed.
(** The kinds of the peers of the cluster: pods, host endpoints, DNS entries. *)
Definition kinds_ok : Prop := forall k n, In (Named k n) (cl_peers cl) -> k = 0 \/ k = 1 \/ k = kind_dns.
Context (Hk : kinds_ok).
Lemma pod_iff : forall q, In q (cl_peers cl) -> (cl_ns cl q <> None <-> is_dns q = false /\ is_hep q = false).
Proof.
  intros q H. destruct (Hcl q H) as (k & n & -> & E). rewrite E. destruct (Hk k n H) as [->|[->| ->]]; cbn; intuition discriminate.
Qed.
Lemma hep_iff : forall q, In q (cl_peers cl) -> is_hep q = true -> cl_ns cl q = None /\ is_dns q = false.
Proof.
  intros q H E. destruct (cl_ns cl q) eqn:En.
  - assert (X : cl_ns cl q <> None) by congruence. apply (pod_iff q H) in X. destruct X. congruence.
  - split; auto. destruct q as [k n|]; [|discriminate]. cbn in *. apply Nat.eqb_eq in E. subst k. reflexivity.
Qed.
(** What a namespace selector selects. *)
Definition ns_sel (e : sexpr) (q : peer) : Prop :=
  In q (cl_peers cl) /\ ((cl_ns cl q <> None /\ sat (ns_has cl q) e) \/ (is_hep q = true /\ gsat e)).
Lemma atom_namespaces : forall ns l a, atom_text blanks gap l a ->
  exists s, parse_atom cl ns true l = Some s /\ plain s /\ forall q, In q s <-> ns_sel (EAtom a) q.
Proof.
  intros ns l a H. unfold parse_atom. cbn [andb].
  rewrite <- (app_nil_r l), <- (app_nil_l (l ++ [])). rewrite (strip_tight [] l []); [|constructor|constructor|eapply atom_tight; eauto].
  pose proof (atom_recognised _ _ (squeeze_atom _ _ H)) as R. pose proof (atom_text_words _ _ _ _ H) as Ws. set (e := squeeze l) in *.
  assert (Q : forall k vs act, word (first vs) -> Forall word vs ->
    exists s, ps_inter (group_of cl false) (ns_pods_with_label cl (untext (text k)) (map untext (map text vs)) act) = Some s /\ plain s /\
              forall q, In q s <-> In q (cl_peers cl) /\ cl_ns cl q <> None /\ of_action act k vs (ns_has cl q)).
  { intros k vs act Hw Fw. rewrite untext_text, map_map, (map_ext _ (fun x => x)), map_id by apply untext_text.
    destruct (plain_inter _ (ns_pods_with_label cl k vs act) (group_plain false) (select_plain cl Hp _)) as (s & Es & Ps & Is).
    exists s. split; auto. split; auto. intros q. rewrite Is, group_of_In, ns_pods_with_label_In by auto.
    split; [tauto|]. intros (A & B & C). pose proof (proj1 (pod_iff q A) B). tauto. }
  assert (F : forall a, a <> AGlobal -> gsat (EAtom a) <-> False) by (intros []; cbn; tauto).
  destruct (list_eq_dec ascii_dec e (text "global()")) as [Eg|Ng].
  { destruct a; cbn [recognised] in R; try (destruct R as (_ & R1 & _); congruence).
    - rewrite R in Eg. discriminate Eg.
    - eexists. split; [reflexivity|]. split; [apply (select_plain cl Hp)|]. intros q. unfold globals, ns_sel. rewrite select_In. cbn. tauto. }
  destruct a as [| |k|k v|k v|k vs|k vs|k v|k v|k v]; cbn [recognised] in R; try congruence.
  - rewrite R. destruct (list_eq_dec ascii_dec (text "all()") (text "all()")); [|congruence].
    eexists. split; [reflexivity|]. split; [apply group_plain|]. intros q. rewrite group_of_In. unfold ns_sel. cbn.
    split; [intros (A & B & [C|C]); [discriminate|]; split; auto; left; split; auto; apply (pod_iff q A); auto|].
    intros (A & [[B _]|[_ []]]). pose proof (proj1 (pod_iff q A) B). tauto.
  - destruct R as (R1 & _ & R2). destruct (list_eq_dec ascii_dec e (text "all()")) as [Ea|Na1]; [congruence|]. rewrite R2, untext_text.
    destruct (plain_inter _ (ns_pods_with_key cl k false) (group_plain false) (select_plain cl Hp _)) as (s & Es & Ps & Is).
    exists s. split; auto. split; auto. intros q. rewrite Is, group_of_In, ns_pods_with_key_In. unfold ns_sel. cbn.
    split; [tauto|]. intros (A & [[B C]|[_ []]]). pose proof (proj1 (pod_iff q A) B). tauto.
  - destruct R as (R1 & _ & R2 & R3). destruct (list_eq_dec ascii_dec e (text "all()")) as [Ea|Na1]; [congruence|]. rewrite R2, R3.
    destruct (Q k [v] FIn Ws) as (s & Es & Ps & Is); [repeat constructor; apply Ws|]. exists s. split; auto. split; auto. intros q. rewrite Is. unfold ns_sel. cbn.
    split; [intros (A & B & w & [->|[]] & C); auto|intros (A & [[B C]|[_ []]]); eauto 10].
  - destruct R as (R1 & _ & R2 & R3). destruct (list_eq_dec ascii_dec e (text "all()")) as [Ea|Na1]; [congruence|]. rewrite R2, R3.
    destruct (Q k [v] FNotIn Ws) as (s & Es & Ps & Is); [repeat constructor; apply Ws|]. exists s. split; auto. split; auto. intros q. rewrite Is. unfold ns_sel. cbn.
    split.
    + intros (A & B & C). split; auto. left. split; auto. intros X. apply C. eauto.
    + intros (A & [[B C]|[_ []]]). split; auto. split; auto. intros (w & [->|[]] & X). auto.
  - destruct R as (R1 & _ & R2 & R3 & R4 & R5). destruct (list_eq_dec ascii_dec e (text "all()")) as [Ea|Na1]; [congruence|].
    rewrite R2, R3, R4. fold (values_in e). rewrite R5. destruct Ws as [Wa Wf].
    destruct (Q k vs FIn Wf Wa) as (s & Es & Ps & Is). exists s. split; auto. split; auto. intros q. rewrite Is. unfold ns_sel. cbn. tauto.
  - destruct R as (R1 & _ & R2 & R3 & R4 & R5). destruct (list_eq_dec ascii_dec e (text "all()")) as [Ea|Na1]; [congruence|].
    rewrite R2, R3, R4. fold (values_in e). rewrite R5. destruct Ws as [Wa Wf].
    destruct (Q k vs FNotIn Wf Wa) as (s & Es & Ps & Is). exists s. split; auto. split; auto. intros q. rewrite Is. unfold ns_sel. cbn. tauto.
  - destruct R as (R1 & _ & R2 & R3 & R4 & R5). destruct (list_eq_dec ascii_dec e (text "all()")) as [Ea|Na1]; [congruence|]. rewrite R2, R3, R4, R5.
    destruct (Q k [v] FContain Ws) as (s & Es & Ps & Is); [repeat constructor; apply Ws|]. exists s. split; auto. split; auto. intros q. rewrite Is. unfold ns_sel. cbn. tauto.
  - destruct R as (R1 & _ & R2 & R3 & R4 & R5). destruct (list_eq_dec ascii_dec e (text "all()")) as [Ea|Na1]; [congruence|]. rewrite R2, R3, R4, R5.
    destruct (Q k [v] FStartWith Ws) as (s & Es & Ps & Is); [repeat constructor; apply Ws|]. exists s. split; auto. split; auto. intros q. rewrite Is. unfold ns_sel. cbn. tauto.
  - destruct R as (R1 & _ & R2 & R3 & R4 & R5). destruct (list_eq_dec ascii_dec e (text "all()")) as [Ea|Na1]; [congruence|]. rewrite R2, R3, R4, R5.
    destruct (Q k [v] FEndWith Ws) as (s & Es & Ps & Is); [repeat constructor; apply Ws|]. exists s. split; auto. split; auto. intros q. rewrite Is. unfold ns_sel. cbn. tauto.
Qed.

(** ** Selectors *)
Lemma plain_union : forall s t, plain s -> plain t -> plain (ps_union s t) /\ forall q, In q (ps_union s t) <-> In q s \/ In q t.
Proof.
  intros s t Hs Ht. assert (E : forall q, In q (ps_union s t) <-> In q s \/ In q t) by (intros q; rewrite ps_union_In; tauto).
  split; auto. intros q H. apply E in H as [H|H]; auto.
Qed.
Lemma plain_diff : forall s t, plain s -> plain t ->
  exists r, ps_diff s t = Some r /\ plain r /\ forall q, In q r <-> In q s /\ ~ In q t.
Proof.
  intros s t Hs Ht. unfold ps_diff. rewrite (plain_canonical s Hs), (plain_canonical t Ht). cbn [bind].
  rewrite (plain_without s Hs), (plain_without t Ht).
  replace (block_peer_set (ipb_sub [] [])) with (@nil peer) by reflexivity. eexists. split; [reflexivity|].
  assert (E : forall q, In q (ps_union (filter (fun p => negb (pmem p t)) s) []) <-> In q s /\ ~ In q t).
  { intros q. rewrite ps_union_In, filter_In, negb_true_iff. cbn [In].
    split; [intros [[A B]|[]]; split; auto; intros C; apply pmem_In in C; congruence|].
    intros [A B]. left. split; auto. apply not_true_is_false. intros C. apply pmem_In in C. auto. }
  split; auto. intros q Hq. apply E in Hq as [Hq _]. auto.
Qed.

(** [den e q]: expression e selects q; [grp g]: the peers from which && and ! take theirs. *)
Section Rec.
Context (ns : option string) (for_ns : bool) (den : sexpr -> peer -> Prop) (good : sexpr -> Prop).
Context (d_atom : forall l a, atom_text blanks gap l a -> good (EAtom a) ->
   exists s, parse_atom cl ns for_ns l = Some s /\ plain s /\ forall q, In q s <-> den (EAtom a) q).
Context (d_or : forall e f q, den (EOr e f) q <-> den e q \/ den f q) (d_and : forall e f q, den (EAnd e f) q <-> den e q /\ den f q).
Context (d_not : forall e q, good e ->
   (In q (if for_ns then group_of cl (negb for_ns || mentions_global e) else namespace_pods cl ns) /\ ~ den e q <-> den (ENot e) q)).
Context (d_grp : forall e q, den e q -> In q (group_of cl (negb for_ns || mentions_global e))).
Context (g_or' : forall e f, good (EOr e f) -> good e /\ good f) (g_and' : forall e f, good (EAnd e f) -> good e /\ good f)
        (g_not' : forall e, good (ENot e) -> good e).

Lemma selector_rec : forall f l e, List.length l < f -> gram LOr l e -> good e ->
  exists s, parse_selector cl f ns for_ns l = Some s /\ plain s /\ forall q, In q s <-> den e q.
Proof.
  induction f as [|f IH]; intros l e L H Hg; [lia|]. cbn [parse_selector].
  rewrite (occurs_global _ _ _ H). destruct (strip_selector_ok l e H) as (r & -> & Hr & Tr & Wr & Lr). cbn [bind].
  destruct (or_pieces r e Hr) as (s0 & e0 & ps & F & Es & Ee).
  pose proof (or_split (s0, e0) ps F) as Sp. cbn [fst] in Sp. rewrite <- Es in Sp. rewrite Sp. destruct ps as [|p1 ps].
  2:{ (* a disjunction *)
    clear Sp. assert (Lp : forall p, In p ((s0, e0) :: p1 :: ps) -> List.length (fst p) < f).
    { intros p Ip. assert (Im : In (fst p) (s0 :: map fst (p1 :: ps))) by (change (s0 :: map fst (p1 :: ps)) with (map fst ((s0, e0) :: p1 :: ps)); apply in_map; auto).
      destruct (joinl_len ["|"; "|"] _ _ Im) as [A _]. rewrite <- Es in A. cbn [List.length map] in A. specialize (A ltac:(lia) ltac:(lia)). lia. }
    assert (G : forall qs acc r0 x0, (forall p, In p (x0 :: qs) -> List.length (fst p) < f /\ gram LAnd (fst p) (snd p)) ->
               acc = Some r0 -> plain r0 -> good (fold_expr EOr (snd x0) (map snd qs)) ->
               exists s, fold_left (fun acc x => bind acc (fun r => bind (parse_selector cl f ns for_ns x) (fun s => Some (ps_union r s))))
                           (fst x0 :: map fst qs) acc = Some s /\ plain s /\
                         forall q, In q s <-> In q r0 \/ den (fold_expr EOr (snd x0) (map snd qs)) q).
    { induction qs as [|y qs IHq]; intros acc r0 x0 Hx -> Pr Gx; cbn [map fold_left fold_expr] in *.
      - destruct (Hx x0 (or_introl eq_refl)) as [Lx Gr]. destruct (IH (fst x0) (snd x0) Lx (g_or1 _ _ Gr) Gx) as (s & Ex & Px & Ix).
        cbn [bind]. rewrite Ex. cbn [bind]. destruct (plain_union r0 s Pr Px) as [Pu Iu]. eexists. split; [reflexivity|]. split; auto.
        intros q. rewrite Iu, Ix. tauto.
      - destruct (Hx x0 (or_introl eq_refl)) as [Lx Gr]. destruct (g_or' _ _ Gx) as [G1 G2].
        destruct (IH (fst x0) (snd x0) Lx (g_or1 _ _ Gr) G1) as (s & Ex & Px & Ix). cbn [bind]. rewrite Ex. cbn [bind].
        destruct (plain_union r0 s Pr Px) as [Pu Iu].
        destruct (IHq (Some (ps_union r0 s)) (ps_union r0 s) y (fun p Ip => Hx p (or_intror Ip)) eq_refl Pu G2) as (s' & E' & P' & I').
        exists s'. split; auto. split; auto. intros q. rewrite I', Iu, Ix, d_or. tauto. }
    rewrite Forall_forall in F. rewrite Ee in *. cbn [map fold_expr] in Hg. cbn [map fold_expr].
    destruct (G (p1 :: ps) (Some []) [] (s0, e0) (fun p Ip => conj (Lp p Ip) (F p Ip)) eq_refl (fun q (X : In q []) => match X with end) Hg)
      as (s & E & P & I). exists s. split; [exact E|]. split; auto. intros q. rewrite I. cbn [In map fold_expr snd]. tauto. }
  clear Sp. cbn [joinl map fold_expr] in Es, Ee. inversion F as [|? ? Fs _]; subst s0 e0. cbn [fst snd] in Fs. clear F.
  destruct (and_pieces r e Fs) as (s0 & e0 & ps & F & Es & Ee).
  pose proof (and_split (s0, e0) ps F) as Sp. cbn [fst] in Sp. rewrite <- Es in Sp. rewrite Sp. destruct ps as [|p1 ps].
  2:{ (* a conjunction *)
    clear Sp. assert (Lp : forall p, In p ((s0, e0) :: p1 :: ps) -> List.length (fst p) < f).
    { intros p Ip. assert (Im : In (fst p) (s0 :: map fst (p1 :: ps))) by (change (s0 :: map fst (p1 :: ps)) with (map fst ((s0, e0) :: p1 :: ps)); apply in_map; auto).
      destruct (joinl_len ["&"; "&"] _ _ Im) as [A _]. rewrite <- Es in A. cbn [List.length map] in A. specialize (A ltac:(lia) ltac:(lia)). lia. }
    assert (G : forall qs acc r0 x0, (forall p, In p (x0 :: qs) -> List.length (fst p) < f /\ gram LUn (fst p) (snd p)) ->
               acc = Some r0 -> plain r0 -> good (fold_expr EAnd (snd x0) (map snd qs)) ->
               exists s, fold_left (fun acc x => bind acc (fun r => bind (parse_selector cl f ns for_ns x) (fun s => ps_inter r s)))
                           (fst x0 :: map fst qs) acc = Some s /\ plain s /\
                         forall q, In q s <-> In q r0 /\ den (fold_expr EAnd (snd x0) (map snd qs)) q).
    { induction qs as [|y qs IHq]; intros acc r0 x0 Hx -> Pr Gx; cbn [map fold_left fold_expr] in *.
      - destruct (Hx x0 (or_introl eq_refl)) as [Lx Gr]. destruct (IH (fst x0) (snd x0) Lx (g_or1 _ _ (g_and1 _ _ Gr)) Gx) as (s & Ex & Px & Ix).
        cbn [bind]. rewrite Ex. cbn [bind]. destruct (plain_inter r0 s Pr Px) as (u & Eu & Pu & Iu). exists u. split; auto. split; auto.
        intros q. rewrite Iu, Ix. tauto.
      - destruct (Hx x0 (or_introl eq_refl)) as [Lx Gr]. destruct (g_and' _ _ Gx) as [G1 G2].
        destruct (IH (fst x0) (snd x0) Lx (g_or1 _ _ (g_and1 _ _ Gr)) G1) as (s & Ex & Px & Ix). cbn [bind]. rewrite Ex. cbn [bind].
        destruct (plain_inter r0 s Pr Px) as (u & Eu & Pu & Iu).
        destruct (IHq (ps_inter r0 s) u y (fun p Ip => Hx p (or_intror Ip)) Eu Pu G2) as (s' & E' & P' & I').
        exists s'. split; auto. split; auto. intros q. rewrite I', Iu, Ix, d_and. tauto. }
    rewrite Forall_forall in F. rewrite Ee in *. cbn [map fold_expr] in Hg.
    destruct (G (p1 :: ps) (Some (group_of cl (negb for_ns || mentions_global (fold_expr EAnd e0 (map snd (p1 :: ps)))))) _ (s0, e0)
                (fun p Ip => conj (Lp p Ip) (F p Ip)) eq_refl (group_plain _) Hg) as (s & E & P & I).
    exists s. split; [exact E|]. split; auto. intros q. rewrite I. cbn [snd].
    split; [tauto|]. intros D. split; auto. }
  clear Sp. cbn [joinl map fold_expr] in Es, Ee. inversion F as [|? ? Fu _]; subst s0 e0. cbn [fst snd] in Fu.
  destruct (unary_cases r e Fu Tr Wr) as [(t & e1 & -> & -> & Ht)|(a & -> & Ha)].
  - rewrite Ascii.eqb_refl. cbn [List.length] in Lr.
    destruct (IH t e1 ltac:(lia) (g_or1 _ _ (g_and1 _ _ Ht)) (g_not' _ Hg)) as (s & Ex & Px & Ix). rewrite Ex. cbn [bind mentions_global].
    destruct (plain_diff (if for_ns then group_of cl (negb for_ns || mentions_global e1) else namespace_pods cl ns) s) as (u & Eu & Pu & Iu);
      [destruct for_ns; [apply group_plain|apply ns_pods_plain]|auto|].
    exists u. split; auto. split; auto. intros q. rewrite Iu, Ix. apply d_not. auto.
  - destruct (atom_head _ _ Ha) as (c & t & Er & Kc). destruct r as [|c' t'] eqn:Err; [discriminate|]. injection Er as -> ->.
    destruct (Ascii.eqb_spec c "!") as [->|]; [discriminate Kc|]. apply d_atom; auto.
Qed.
End Rec.

Definition no_global (e : sexpr) : Prop := mentions_global e = false.
Theorem selector_pods : forall ns s e, denotes s e -> no_global e ->
  exists r, calico_selector cl ns false (YStr s) = Some r /\ plain r /\ forall q, In q r <-> in_scope ns q /\ sat (pod_has cl q) e.
Proof.
  intros ns s e H G. unfold calico_selector. pose proof (gram_strip _ _ _ H) as (_ & [Th _] & _).
  assert (Nb : forallb is_space (text s) = false).
  { apply not_true_is_false. intros F. rewrite forallb_forall in F.
    assert (X : forall l, (forall c, In c l -> is_space c = true) -> lstrip l = []).
    { induction l as [|c l IHl]; intros Hl; auto. cbn [lstrip]. rewrite (Hl c (or_introl eq_refl)). apply IHl. intros d Hd. apply Hl. right; auto. }
    unfold strip in Th. rewrite (X _ F) in Th. exact Th. }
  rewrite Nb.
  apply (selector_rec ns false (fun e q => in_scope ns q /\ sat (pod_has cl q) e) no_global).
  - intros l a Ha Ga. apply atom_pods; auto. intros ->. discriminate Ga.
  - intros e1 e2 q. cbn [sat]. tauto.
  - intros e1 e2 q. cbn [sat]. tauto.
  - intros e1 q _. rewrite namespace_pods_In. cbn [sat]. tauto.
  - intros e1 q [S _]. apply group_of_In. split; [apply S|]. split; [eapply scope_not_dns; eauto|auto].
  - intros e1 e2. unfold no_global. cbn [mentions_global]. apply orb_false_iff.
  - intros e1 e2. unfold no_global. cbn [mentions_global]. apply orb_false_iff.
  - intros e1. auto.
  - assert (Lt : List.length (text s) = String.length s) by (clear; induction s as [|c s IHs]; auto; cbn; unfold text in *; rewrite IHs; reflexivity).
    lia.
  - exact H.
  - exact G.
Qed.
Lemma gsat_mentions : forall e, gsat e -> mentions_global e = true.
Proof.
  induction e as [a|e IH|e IHe f IHf|e IHe f IHf]; cbn.
  - destruct a; tauto.
  - tauto.
  - intros [A B]. rewrite IHe by auto. reflexivity.
  - intros [A|A]; [rewrite IHe by auto; reflexivity|rewrite IHf by auto; apply orb_true_r].
Qed.
Theorem selector_namespaces : forall ns s e, denotes s e ->
  exists r, calico_selector cl ns true (YStr s) = Some r /\ plain r /\ forall q, In q r <-> ns_sel e q.
Proof.
  intros ns s e H. unfold calico_selector. pose proof (gram_strip _ _ _ H) as (_ & [Th _] & _).
  assert (Nb : forallb is_space (text s) = false).
  { apply not_true_is_false. intros F. rewrite forallb_forall in F.
    assert (X : forall l, (forall c, In c l -> is_space c = true) -> lstrip l = []).
    { induction l as [|c l IHl]; intros Hl; auto. cbn [lstrip]. rewrite (Hl c (or_introl eq_refl)). apply IHl. intros d Hd. apply Hl. right; auto. }
    unfold strip in Th. rewrite (X _ F) in Th. exact Th. }
  rewrite Nb.
  apply (selector_rec ns true ns_sel (fun _ => True)); auto.
  - intros l a Ha _. apply atom_namespaces; auto.
  - intros e1 e2 q. unfold ns_sel. cbn [sat gsat]. tauto.
  - intros e1 e2 q. unfold ns_sel. cbn [sat gsat]. split; [tauto|]. intros [[A [B|B]] [_ [C|C]]]; try tauto.
    + exfalso. destruct B as [B _], C as [C _]. apply (pod_iff q A) in B. destruct B. congruence.
    + exfalso. destruct B as [B _], C as [C _]. apply (pod_iff q A) in C. destruct C. congruence.
  - intros e1 q _. rewrite group_of_In. unfold ns_sel. cbn [sat gsat negb orb]. split.
    + intros [(A & B & C) N]. split; auto. destruct (is_hep q) eqn:Eh.
      * right. destruct C as [C|C]; [|discriminate]. split; auto. split; auto. intros X. apply N. auto.
      * left. assert (P : cl_ns cl q <> None) by (apply (pod_iff q A); auto). split; auto. intros X. apply N. auto.
    + intros (A & [[B C]|(B & C & D)]).
      * pose proof (proj1 (pod_iff q A) B) as [X Y]. split; [auto|]. intros (_ & [[_ Z]|[Z _]]); [auto|congruence].
      * destruct (hep_iff q A B) as [X Y]. split; [auto|]. intros (_ & [[Z _]|[_ Z]]); [congruence|auto].
  - intros e1 q (A & [[B C]|[B C]]); apply group_of_In; (split; [auto|]).
    + pose proof (proj1 (pod_iff q A) B) as [X Y]. auto.
    + destruct (hep_iff q A B) as [X Y]. split; auto. left. cbn. apply gsat_mentions. auto.
  - assert (Lt : List.length (text s) = String.length s) by (clear; induction s as [|c s IHs]; auto; cbn; unfold text in *; rewrite IHs; reflexivity).
    lia.
Qed.
End Sets.
