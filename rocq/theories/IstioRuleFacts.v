(** * What the Istio policy parser makes of operations, conditions, rules and policies *)
From Coq Require Import ZArith List Bool Arith Lia String Ascii.
From Verif Require Import IntervalModel IntervalFacts HyperModel HyperFacts HyperOps HyperDims HyperTop HyperInst
                          PropHyperCube ConnModel ConnFacts TextModel TextFacts PortProtoModel PortProtoFacts PeerModel PeerFacts PeerSetFacts
                          PolicyModel PolicyLaws PolicyFacts LayerFacts ConnAlg StdDims PropLayers YamlModel ClusterModel K8sParserModel SelectorFacts
                          ConnDict NamedExcl PropSelectors K8sParserFacts CalicoSelectorModel CalicoSelectorFacts CalicoSelectorGram CalicoSelectorSets
                          CalicoParserModel CalicoParserFacts IstioValueModel PropIstioValues IstioParserModel IstioParserFacts.
Import ListNotations.
Local Open Scope string_scope.
Local Open Scope list_scope.
Local Open Scope nat_scope.
Local Opaque min_pod_index max_pod_index min_ipv6_index max_ipv6_index max_ipv4_index v4max v6min v6max.

(** ** Ports *)
(** A text of a port is the usual text of a number. *)
Definition port_benign (e : yaml) : Prop := forall s, e = YStr s -> exists z, s = str_of_Z z.
Lemma str_of_Z_inj : forall a b, str_of_Z a = str_of_Z b -> a = b.
Proof. intros a b E. pose proof (py_int_of_Z a) as A. pose proof (py_int_of_Z b) as B. rewrite E in A. congruence. Qed.
Definition plain_ports (q : portset) : Prop := in_range 1 65535 (port_set q) /\ named_ports q = [] /\ excluded_named_ports q = [].
Lemma istio_port_spec : forall y q, istio_port y = Some q -> port_benign y -> plain_ports q /\ forall n, mem n (port_set q) <-> port_is n y.
Proof.
  intros y q E B. unfold istio_port in E. destruct (port_number y) as [n|] eqn:En; [|discriminate]. cbn [bind] in E.
  destruct (port_in_domain n) eqn:D; [|discriminate]. unfold port_in_domain in D. unfold ps_add_port, ps_new in E. cbn [port_set named_ports excluded_named_ports] in E.
  rewrite add_one_interval in E by lia. cbn [bind] in E. injection E as <-. unfold plain_ports. cbn [port_set named_ports excluded_named_ports].
  split. { split; auto. split; [cbn; lia|]. intros z Hz. apply one_mem in Hz. lia. }
  intros k. rewrite one_mem. unfold port_is. unfold port_number in En. destruct y as [| | | |s| |]; cbn [yint] in *; try discriminate.
  - split; [intros H; left; assert (k = n) by lia; congruence|intros [H|H]; [|discriminate]]. assert (k = n) by congruence. lia.
  - split; [intros H; left; assert (k = n) by lia; congruence|intros [H|H]; [|discriminate]]. assert (k = n) by congruence. lia.
  - destruct (B s eq_refl) as (z & ->). rewrite py_int_of_Z in En. injection En as ->. split.
    + intros H. right. f_equal. f_equal. lia.
    + intros [H|H]; [discriminate|]. injection H as H. apply str_of_Z_inj in H. lia.
Qed.
Lemma in_range_or : forall a b s t r, in_range a b s -> in_range a b t -> iset_or s t = Some r -> in_range a b r /\ forall z, mem z r <-> mem z s \/ mem z t.
Proof.
  intros a b s t r [S1 S2] [T1 T2] E. destruct (iset_or_ok t s S1 T1) as (r' & E' & C & M & _). rewrite E in E'. injection E' as <-.
  split; auto. split; auto. intros z Hz. apply M in Hz as [Hz|Hz]; auto.
Qed.
Lemma in_range_sub : forall a b s t, in_range a b s -> in_range a b t -> in_range a b (iset_sub s t) /\ forall z, mem z (iset_sub s t) <-> mem z s /\ ~ mem z t.
Proof.
  intros a b s t [S1 S2] [T1 T2]. destruct (iset_sub_ok t s S1 T1) as (C & M & _). split; auto. split; auto. intros z Hz. apply M in Hz as [Hz _]. auto.
Qed.
Lemma fold_none : forall {X Y} (f : X -> Y -> option X) l, fold_left (fun acc p => bind acc (fun r => f r p)) l None = None.
Proof. intros X Y f. induction l; auto. Qed.
Lemma ports_or_fold : forall l r0 r, fold_left (fun acc p => bind acc (fun r => bind (istio_port p) (fun q => ps_or r q))) l (Some r0) = Some r ->
  (forall e, In e l -> port_benign e) -> plain_ports r0 -> plain_ports r /\ forall n, mem n (port_set r) <-> mem n (port_set r0) \/ exists e, In e l /\ port_is n e.
Proof.
  induction l as [|e l IH]; intros r0 r E B P0; cbn [fold_left bind] in E.
  - injection E as <-. split; auto. intros n. split; auto. intros [H|(e & [] & _)]; auto.
  - destruct (istio_port e) as [q|] eqn:Eq; cbn [bind] in E; [|rewrite fold_none in E; discriminate].
    destruct (istio_port_spec e q Eq (B e (or_introl eq_refl))) as [(Q1 & Q2 & Q3) Mq]. destruct P0 as (P1 & P2 & P3).
    unfold ps_or in E at 2. destruct (iset_or (port_set r0) (port_set q)) as [u|] eqn:Eu; cbn [bind] in E; [|rewrite fold_none in E; discriminate].
    destruct (in_range_or _ _ _ _ _ P1 Q1 Eu) as [U1 U2]. rewrite P2, P3, Q2 in E. cbn [sunion sminus fold_left filter] in E.
    destruct (IH _ _ E) as [A1 A2]. { intros; apply B; right; auto. } { split; auto. }
    split; auto. intros n. rewrite A2. cbn [port_set In]. rewrite U2, Mq. split.
    + intros [[H|H]|(k & H & H')]; eauto.
    + intros [H|(k & [<-|H] & H')]; eauto.
Qed.
Lemma ports_sub_fold : forall l r0 r, fold_left (fun acc p => bind acc (fun r => bind (istio_port p) (fun q => Some (ps_sub r q)))) l (Some r0) = Some r ->
  (forall e, In e l -> port_benign e) -> plain_ports r0 -> plain_ports r /\ forall n, mem n (port_set r) <-> mem n (port_set r0) /\ forall e, In e l -> ~ port_is n e.
Proof.
  induction l as [|e l IH]; intros r0 r E B P0; cbn [fold_left bind] in E.
  - injection E as <-. split; auto. intros n. split; [intros H; split; auto; intros e []|tauto].
  - destruct (istio_port e) as [q|] eqn:Eq; cbn [bind] in E; [|rewrite fold_none in E; discriminate].
    destruct (istio_port_spec e q Eq (B e (or_introl eq_refl))) as [(Q1 & Q2 & Q3) Mq]. destruct P0 as (P1 & P2 & P3).
    unfold ps_sub in E at 2. destruct (in_range_sub _ _ _ _ P1 Q1) as [U1 U2]. rewrite P2, P3, Q2 in E. cbn [sunion sminus fold_left filter] in E.
    destruct (IH _ _ E) as [A1 A2]. { intros; apply B; right; auto. } { split; auto. }
    split; auto. intros n. rewrite A2. cbn [port_set In]. rewrite U2, Mq. split.
    + intros [[H H0] H1]. split; auto. intros k [<-|Hk]; auto.
    + intros [H H1]. split; [split; auto|]. auto.
Qed.
Definition ports_benign (m : list (string * yaml)) (kpos kneg : string) : Prop :=
  yget m kpos <> YList [] /\ forall k l e, k = kpos \/ k = kneg -> yget m k = YList l -> In e l -> port_benign e.
Lemma or_nil_given : forall m k e, In e (or_nil (list_at m k)) -> exists l, yget m k = YList l /\ In e l.
Proof. intros m k e H. unfold list_at in H. destruct (yget m k) as [| | | | |l|]; cbn [or_nil] in H; try destruct H. exists l. auto. Qed.
Lemma istio_ports_spec : forall m kpos kneg q, istio_ports (list_at m kpos) (list_at m kneg) = Some q -> ports_benign m kpos kneg ->
  plain_ports q /\ forall n, (1 <= n <= 65535)%Z -> (mem n (port_set q) <-> port_match m kpos kneg n).
Proof.
  intros m kpos kneg q E [Np B]. unfold istio_ports in E.
  match type of E with bind ?e _ = _ => destruct e as [r|] eqn:Er; [|discriminate] end. cbn [bind] in E.
  assert (P0 : plain_ports r /\ forall n, (1 <= n <= 65535)%Z -> (mem n (port_set r) <-> one_of m kpos (port_is n))).
  { destruct (list_at m kpos) as [l|] eqn:El.
    - destruct (ports_or_fold _ _ _ Er) as [P M]. { intros e He. apply (B kpos l); auto. apply list_at_given; auto. } { split; auto. split; [exact I|]. intros z Hz. apply mem_nil in Hz. tauto. }
      split; auto. intros n _. rewrite M. cbn [ps_new port_set]. rewrite mem_nil, (one_of_at m kpos _ Np), El. tauto.
    - injection Er as <-. split.
      + split; auto. split; [cbn; lia|]. intros z Hz. apply one_mem in Hz. lia.
      + intros n Hn. rewrite (one_of_at m kpos _ Np), El. cbn [ps_new port_set]. unfold all_ports_interval. rewrite one_mem. tauto. }
  destruct P0 as [P0 M0]. destruct (ports_sub_fold _ _ _ E) as [P1 M1]; auto.
  { intros e He. apply or_nil_given in He as (l & El & He). apply (B kneg l); auto. }
  split; auto. intros n Hn. rewrite M1, (M0 n Hn). unfold port_match. rewrite none_of_at. tauto.
Qed.

(** ** Methods *)
Lemma method_nth : forall z nm, nth_error method_names (Z.to_nat z) = Some nm -> (0 <= z)%Z -> (0 <= z <= 8)%Z /\ nm = mname z.
Proof.
  intros z nm E Hz. assert (nth_error method_names (Z.to_nat z) <> None) by congruence. apply nth_error_Some in H. cbn [method_names List.length] in H. split; [lia|].
  unfold mname. symmetry. apply nth_error_nth. exact E.
Qed.
Lemma method_nth' : forall z, (0 <= z <= 8)%Z -> nth_error method_names (Z.to_nat z) = Some (mname z).
Proof.
  intros z Hz. unfold mname. change all_methods with method_names.
  destruct (nth_error method_names (Z.to_nat z)) as [s|] eqn:E; [f_equal; symmetry; apply nth_error_nth; exact E|].
  apply nth_error_None in E. cbn [method_names List.length] in E. lia.
Qed.
Lemma mname_In : forall z, (0 <= z <= 8)%Z -> In (mname z) all_methods.
Proof. intros z Hz. apply method_nth' in Hz. apply nth_error_In in Hz. exact Hz. Qed.
Lemma In_mname : forall s, In s all_methods -> exists z, (0 <= z <= 8)%Z /\ s = mname z.
Proof.
  intros s H. apply In_nth_error in H as (n & E). exists (Z.of_nat n).
  apply method_nth; [rewrite Nat2Z.id; exact E|lia].
Qed.
Lemma methods_fold : forall ms r0 r, fold_left (fun acc x => bind acc (fun r => m_add r x)) ms (Some r0) = Some r -> incl ms all_methods -> in_range 0 8 r0 ->
  in_range 0 8 r /\ forall z, (0 <= z <= 8)%Z -> (mem z r <-> mem z r0 \/ In (mname z) ms).
Proof.
  induction ms as [|s ms IH]; intros r0 r E B P0; cbn [fold_left bind] in E.
  - injection E as <-. split; auto. intros z _. cbn [In]. tauto.
  - destruct (In_mname s (B s (or_introl eq_refl))) as (k & Hk & ->). destruct (mname_ok k Hk) as (_ & Ek & _).
    unfold m_add in E at 2. rewrite Ek in E. cbn [bind] in E. destruct P0 as [C0 R0].
    destruct (add_interval_ok r0 (Ivl k k)) as (u & Eu & Cu & Mu & _); auto; [cbn; lia|]. rewrite Eu in E.
    destruct (IH _ _ E) as [A1 A2]. { intros x Hx. apply B. right; auto. } { split; auto. intros z Hz. apply Mu in Hz as [Hz|Hz]; auto. cbn [lo hi] in Hz. lia. }
    split; auto. intros z Hz. rewrite (A2 z Hz), Mu. cbn [lo hi In]. split.
    + intros [[H|H]|H]; auto. right. left. f_equal. lia.
    + intros [H|[H|H]]; auto. apply mname_inj in H; auto. left. right. lia.
Qed.
Lemma istio_method_spec : forall y r, istio_method y = Some r -> in_range 0 8 r /\ forall z, (0 <= z <= 8)%Z -> (mem z r <-> method_is z y).
Proof.
  intros y r E. unfold istio_method in E. destruct (enumerated_yaml y all_methods) as [ms|] eqn:Em; [|discriminate]. cbn [bind] in E.
  match type of E with bind ?e _ = _ => destruct e as [u|] eqn:Eu; [|discriminate] end. cbn [bind] in E.
  assert (Er : u = r). { destruct u; [|congruence]. destruct y; try congruence; destruct (ytrue _); congruence. } subst u. clear E.
  assert (NN : forall w, w = "" -> ~ In "" all_methods) by (intros w _; cbn; intuition discriminate).
  assert (I0 : in_range 0 8 []) by (split; [exact I|intros z Hz; apply mem_nil in Hz; tauto]).
  assert (MI : forall z, (0 <= z <= 8)%Z -> (method_is z y <-> exists v, y = YStr v /\ value_matches (text v) (text (mname z)))).
  { intros z Hz. unfold method_is, value_is. split.
    - intros (nm & _ & En & v & Ev & M). apply method_nth in En as [_ ->]; [eauto|lia].
    - intros (v & Ev & M). exists (mname z). split; [lia|]. split; [apply method_nth'; auto|]. eauto. }
  destruct y as [| | | |v|l|m]; cbn [enumerated_yaml] in Em; try discriminate.
  - assert (Sp : forall w, In w ms <-> In w all_methods /\ value_matches (text v) (text w)) by (intros w; apply (enumerated_spec v all_methods ms Em w (NN w))).
    destruct (methods_fold _ _ _ Eu) as [P M]; auto. { intros w Hw. apply Sp in Hw as [Hw _]. auto. }
    split; auto. intros z Hz. rewrite (M z Hz), (MI z Hz), mem_nil, Sp. split.
    + intros [[]|[_ H]]. exists v. auto.
    + intros (v' & Ev & H). injection Ev as <-. right. split; auto. apply mname_In; auto.
  - destruct (existsb _ l); [discriminate|]. injection Em as <-. cbn in Eu. injection Eu as <-. split; auto. intros z Hz. rewrite (MI z Hz), mem_nil.
    split; [intros []|intros (v & H & _); discriminate].
  - destruct (assoc_s "*" m); [discriminate|]. injection Em as <-. cbn in Eu. injection Eu as <-. split; auto. intros z Hz. rewrite (MI z Hz), mem_nil.
    split; [intros []|intros (v & H & _); discriminate].
Qed.
Lemma methods_or_fold : forall l r0 r, fold_left (fun acc p => bind acc (fun r => bind (istio_method p) (fun q => iset_or r q))) l (Some r0) = Some r ->
  in_range 0 8 r0 -> in_range 0 8 r /\ forall z, (0 <= z <= 8)%Z -> (mem z r <-> mem z r0 \/ exists e, In e l /\ method_is z e).
Proof.
  induction l as [|e l IH]; intros r0 r E P0; cbn [fold_left bind] in E.
  - injection E as <-. split; auto. intros n _. split; auto. intros [H|(e & [] & _)]; auto.
  - destruct (istio_method e) as [q|] eqn:Eq; cbn [bind] in E; [|rewrite fold_none in E; discriminate].
    destruct (istio_method_spec e q Eq) as [Q1 Mq].
    destruct (iset_or r0 q) as [u|] eqn:Eu; cbn [bind] in E; [|rewrite fold_none in E; discriminate].
    destruct (in_range_or _ _ _ _ _ P0 Q1 Eu) as [U1 U2]. destruct (IH _ _ E U1) as [A1 A2]. split; auto. intros n Hn. rewrite (A2 n Hn), U2, (Mq n Hn). cbn [In]. split.
    + intros [[H|H]|(k & H & H')]; eauto.
    + intros [H|(k & [<-|H] & H')]; eauto.
Qed.
Lemma methods_sub_fold : forall l r0 r, fold_left (fun acc p => bind acc (fun r => bind (istio_method p) (fun q => Some (iset_sub r q)))) l (Some r0) = Some r ->
  in_range 0 8 r0 -> in_range 0 8 r /\ forall z, (0 <= z <= 8)%Z -> (mem z r <-> mem z r0 /\ forall e, In e l -> ~ method_is z e).
Proof.
  induction l as [|e l IH]; intros r0 r E P0; cbn [fold_left bind] in E.
  - injection E as <-. split; auto. intros n _. split; [intros H; split; auto; intros e []|tauto].
  - destruct (istio_method e) as [q|] eqn:Eq; cbn [bind] in E; [|rewrite fold_none in E; discriminate].
    destruct (istio_method_spec e q Eq) as [Q1 Mq]. destruct (in_range_sub _ _ _ _ P0 Q1) as [U1 U2].
    destruct (IH _ _ E U1) as [A1 A2]. split; auto. intros n Hn. rewrite (A2 n Hn), U2, (Mq n Hn). cbn [In]. split.
    + intros [[H H0] H1]. split; auto. intros k [<-|Hk]; auto.
    + intros [H H1]. split; [split; auto|]. auto.
Qed.
Lemma istio_methods_spec : forall m kpos kneg r, istio_methods (list_at m kpos) (list_at m kneg) = Some r -> yget m kpos <> YList [] ->
  in_range 0 8 r /\ forall z, (0 <= z <= 8)%Z -> (mem z r <-> one_of m kpos (method_is z) /\ none_of m kneg (method_is z)).
Proof.
  intros m kpos kneg q E Np. unfold istio_methods in E.
  match type of E with bind ?e _ = _ => destruct e as [r|] eqn:Er; [|discriminate] end. cbn [bind] in E.
  assert (P0 : in_range 0 8 r /\ forall z, (0 <= z <= 8)%Z -> (mem z r <-> one_of m kpos (method_is z))).
  { destruct (list_at m kpos) as [l|] eqn:El.
    - destruct (methods_or_fold _ _ _ Er) as [P M]. { split; [exact I|]. intros z Hz. apply mem_nil in Hz. tauto. }
      split; auto. intros n Hn. rewrite (M n Hn), mem_nil, (one_of_at m kpos _ Np), El. tauto.
    - injection Er as <-. unfold whole_methods. change (get_interval_set 0 8) with [Ivl 0 8]. split.
      + split; [cbn; lia|]. intros z Hz. apply one_mem in Hz. lia.
      + intros n Hn. rewrite (one_of_at m kpos _ Np), El, one_mem. tauto. }
  destruct P0 as [P0 M0]. destruct (methods_sub_fold _ _ _ E P0) as [P1 M1]; auto.
  split; auto. intros n Hn. rewrite (M1 n Hn), (M0 n Hn), none_of_at. tauto.
Qed.

(** ** Hosts and paths.
    [code w] is the number that stands for the word [w] in a connection, [dfa t] the set that stands for the automaton of the text
    [t].  The automaton is assumed to accept the words that the regular expression matches. *)
Section Words.
Context (code : word -> Z) (dfa : list ascii -> val).
(** The words of a dimension, DimensionsManager.py:42-44, 84-92: a path starts with a slash. *)
Definition domain_word (d : dim) (w : word) : Prop := over_alphabet w /\ (d = 7 -> exists t, w = "/"%char :: t).
Definition dfa_right (d : dim) (l : list yaml) : Prop := forall t, values_regex l = Some t ->
  val_valid std_dom d (dfa t) /\ forall w e, domain_word d w -> read_regex t = Some e -> (val_mem (code w) (dfa t) <-> re_matches e w).
Definition code_ok : Prop := forall w, w <> [] -> code w <> 0%Z.
(** Automata of the two lists are right, and some non-empty word is in the result (see the finding F4). *)
Definition words_benign (d : dim) (m : list (string * yaml)) (kpos kneg : string) : Prop :=
  (forall k l, k = kpos \/ k = kneg -> yget m k = YList l -> dfa_right d l) /\
  (given m kpos \/ given m kneg -> exists w, w <> [] /\ domain_word d w /\ one_of m kpos (fun e => value_is e w) /\ none_of m kneg (fun e => value_is e w)).
Lemma values_spec : forall d l t w, values_regex l = Some t -> dfa_right d l -> domain_word d w -> (val_mem (code w) (dfa t) <-> exists e, In e l /\ value_is e w).
Proof using.
  intros d l t w E D Hw. destruct (C40_regex_language l t E) as (e & Ee & M). destruct (D t E) as [_ D2]. rewrite (D2 w e Hw Ee), M. unfold value_is. destruct Hw as [Hw _]. split.
  - intros (_ & s & Hs & H). eauto.
  - intros (y & Hy & s & -> & H). eauto.
Qed.
Lemma istio_words_spec : forall d m kpos kneg o, d = 6 \/ d = 7 -> code_ok -> words_benign d m kpos kneg ->
  istio_words (val_ops std_dom) dfa d (list_at m kpos) (list_at m kneg) = Some o ->
  opt (word_set std_dom d) o /\ forall w, domain_word d w -> (opt (val_mem (code w)) o <-> one_of m kpos (fun e => value_is e w) /\ none_of m kneg (fun e => value_is e w)).
Proof using.
  intros d m kpos kneg o Hd CO [D Ex] E.
  assert (Ed : std_dom d = VN true []) by (destruct Hd as [->| ->]; reflexivity).
  assert (Np : yget m kpos <> YList []).
  { intros H. unfold istio_words in E. assert (El : list_at m kpos = Some []) by (apply list_at_given; auto). rewrite El in E. discriminate. }
  pose proof (val_laws std_dom (ok_doms _ _ _ _ _ _ ex_alg)) as L.
  assert (X : opt (val_valid std_dom d) o /\ (given m kpos \/ given m kneg \/ o = None) /\
              forall w, domain_word d w -> (opt (val_mem (code w)) o <-> one_of m kpos (fun e => value_is e w) /\ none_of m kneg (fun e => value_is e w))).
  { assert (S : forall w, (one_of m kpos (fun e => value_is e w) /\ none_of m kneg (fun e => value_is e w)) <->
       (match list_at m kpos with Some l => exists e, In e l /\ value_is e w | None => True end) /\ forall e, In e (or_nil (list_at m kneg)) -> ~ value_is e w).
    { intros w. rewrite (one_of_at m kpos _ Np), none_of_at. tauto. }
    unfold istio_words in E. destruct (list_at m kpos) as [l|] eqn:El.
    - apply list_at_given in El as Gl. destruct (values_regex l) as [t|] eqn:Et; [|destruct (list_at m kneg); discriminate]. cbn [option_map bind] in E.
      pose proof (D kpos l (or_introl eq_refl) Gl) as Dl. destruct (Dl t Et) as [V1 _].
      destruct (list_at m kneg) as [l'|] eqn:El'.
      + apply list_at_given in El' as Gl'. destruct (values_regex l') as [t'|] eqn:Et'; [|discriminate]. cbn [bind] in E. injection E as <-.
        pose proof (D kneg l' (or_intror eq_refl) Gl') as Dl'. destruct (Dl' t' Et') as [V2 _]. cbn [opt].
        split; [apply (L_sub_valid _ _ _ L); auto|]. split; [left; exists l; auto|]. intros w Hw. rewrite S. cbn [or_nil].
        rewrite (L_sub _ _ _ L d _ _ (code w) V1 V2), (values_spec d l t w Et Dl Hw), (values_spec d l' t' w Et' Dl' Hw). clear. split.
        * intros [H1 H2]. split; auto. intros e He H. apply H2. eauto.
        * intros [H1 H2]. split; auto. intros (e & He & H). apply (H2 e He H).
      + injection E as <-. cbn [opt]. split; auto. split; [left; exists l; auto|]. intros w Hw. rewrite S. cbn [or_nil]. rewrite (values_spec d l t w Et Dl Hw). clear. split; [intros H; split; [auto|intros e []]|tauto].
    - destruct (list_at m kneg) as [l'|] eqn:El'.
      + apply list_at_given in El' as Gl'. cbn [bind] in E. destruct (values_regex l') as [t'|] eqn:Et'; [|discriminate]. cbn [bind] in E. injection E as <-.
        pose proof (D kneg l' (or_intror eq_refl) Gl') as Dl'. destruct (Dl' t' Et') as [V2 _]. cbn [opt].
        split; [apply (L_sub_valid _ _ _ L); auto; apply (L_dom _ _ _ L)|]. split; [right; left; exists l'; auto|]. intros w Hw. rewrite S. cbn [or_nil].
        rewrite (L_sub _ _ _ L d _ _ (code w) (L_dom _ _ _ L d) V2), (values_spec d l' t' w Et' Dl' Hw).
        assert (T : val_mem (code w) (vdom (val_ops std_dom) d)) by (cbn [vdom val_ops]; rewrite Ed; cbn; rewrite mem_nil; tauto).
        clear - T. split.
        * intros [H1 H2]. split; auto. intros e He H. apply H2. eauto.
        * intros [H1 H2]. split; auto. intros (e & He & H). apply (H2 e He H).
      + injection E as <-. cbn [opt]. split; auto. split; auto. intros w _. rewrite S. cbn [or_nil]. clear. split; [intros _; split; [auto|intros e []]|tauto]. }
  destruct X as (X1 & X2 & X3). split; auto. destruct o as [v|]; [|exact I]. cbn [opt] in *. split; auto.
  destruct Ex as (w & Nw & Hw & H). { destruct X2 as [X2|[X2|X2]]; [auto|auto|discriminate]. }
  exists (code w). split; [apply CO; auto|]. apply X3; auto.
Qed.
End Words.

(** ** Rules *)
Section Rules.
Context (reg : list peer) (R : reg_ok reg).
Context (cl : cluster) (Hc : cluster_ok cl) (Hk : kinds_ok cl) (HC : container reg (cl_peers cl)).
Context (Hp : forall p nm n pr, assoc_s nm (cl_ports cl p) = Some (n, pr) -> (1 <= n <= 65535)%Z).
Context (net : yaml -> option cidr) (Hnet : forall y c, net y = Some c -> cidr_ok c) (sa : peer -> string).
Context (code : word -> Z) (dfa : list ascii -> val) (CO : code_ok code).
Let K := std_alg reg R.
Let A := cube_ops std_dom std_all reg.
Let W := cube_laws std_dom std_rest reg reg std_peers [Ivl 0 255] K.
Let O := val_ops std_dom.
Notation space := (a_space std_dom).
Notation from := (a_src reg).
Notation to := (a_dst reg).
Notation ok := (a_ok std_dom std_rest).
Notation mk := (conns_of std_dom reg (cl_ports cl)).
Notation all := (hall Conn).
(** The host and the path of a connection are the words [h] and [p]. *)
Definition words_at (pt : conn) (h p : word) : Prop := (pt 6 = code h /\ domain_word 6 h) /\ (pt 7 = code p /\ domain_word 7 p).

Definition operation_benign (m : list (string * yaml)) : Prop :=
  ports_benign m "ports" "notPorts" /\ yget m "methods" <> YList [] /\ words_benign code dfa 7 m "paths" "notPaths" /\ words_benign code dfa 6 m "hosts" "notHosts".
Lemma space_ranges : forall pt, space pt -> (1 <= pt 4%nat <= 65535)%Z /\ (0 <= pt 5%nat <= 8)%Z.
Proof using.
  intros pt Sp. pose proof (Sp 4) as H4. pose proof (Sp 5) as H5. cbn [vdom val_ops std_dom val_mem] in H4, H5. apply one_mem in H4, H5. auto.
Qed.
Lemma operation_spec : forall y c, parse_operation O dfa mk y = Some c ->
  exists m, entry_of "operation" y m /\ (operation_benign m -> ok c /\ forall pt h p, space pt -> words_at pt h p -> (pt @ c <-> operation_matches m (pt 4) (pt 5) h p)).
Proof using R Hp CO.
  intros y c E. unfold parse_operation in E. destruct (check_fields y _) as [d|] eqn:Ed; [|discriminate]. cbn [bind] in E.
  match type of E with bind ?e _ = _ => destruct e as [m|] eqn:Em; [|discriminate] end. cbn [bind] in E.
  apply check_fields_map in Ed as [-> _]. apply check_fields_map in Em as [Em _]. exists m. split; [exists d; auto|]. intros (B1 & B2 & B3 & B4).
  destruct (negb _); [discriminate|].
  destruct (istio_ports _ _) as [ports|] eqn:E1; [|discriminate]. cbn [bind] in E. destruct (istio_methods _ _) as [methods|] eqn:E2; [|discriminate]. cbn [bind] in E.
  destruct (istio_words O dfa 7 _ _) as [paths|] eqn:E3; [|discriminate]. cbn [bind] in E. destruct (istio_words O dfa 6 _ _) as [hosts|] eqn:E4; [|discriminate]. cbn [bind] in E.
  injection E as <-. destruct (istio_ports_spec m _ _ _ E1 B1) as [(P1 & P2 & P3) M1]. destruct (istio_methods_spec m _ _ _ E2 B2) as [Q2 M2].
  destruct (istio_words_spec code dfa 7 m _ _ _ (or_intror eq_refl) CO B3 E3) as [Q3 M3].
  destruct (istio_words_spec code dfa 6 m _ _ _ (or_introl eq_refl) CO B4 E4) as [Q4 M4].
  match goal with |- ok (mk ?k) /\ _ => assert (DK : dict_ok std_dom reg k) end.
  { constructor; cbn; auto. }
  destruct (std_conns_of_spec reg R (cl_ports cl) Hp _ DK) as [OK M]. split; [exact OK|].
  intros pt h p Sp [[Eh Hh] [Epp Hpp]]. rewrite (M pt Sp). unfold dict_rest, dport_in. cbn [k_src k_dst k_proto k_sports k_dports k_methods k_hosts k_paths k_type k_code opt].
  rewrite P2. destruct (space_ranges pt Sp) as [R4 R5]. unfold operation_matches. rewrite <- (M1 _ R4), <- (M2 _ R5), <- (M4 h Hh), <- (M3 p Hpp), Eh, Epp. clear. split.
  - intros [(_ & _ & _ & _ & H1 & H2 & H3 & _ & _) [H|(nm & pr & [] & _)]]. auto.
  - intros (H1 & H2 & H3 & H4). split; [repeat apply conj; auto|]. left. auto.
Qed.

Definition condition_benign (m : list (string * yaml)) : Prop :=
  yget m "key" <> YStr "" /\ yget m "values" <> YList [] /\ yget m "notValues" <> YList [] /\
  (yget m "key" = YStr "source.ip" -> forall k l e, k = "values" \/ k = "notValues" -> yget m k = YList l -> In e l -> ytrue e = true) /\
  (yget m "key" = YStr "source.principal" -> accounts_ok cl sa) /\
  (yget m "key" = YStr "destination.port" -> ports_benign m "values" "notValues").
Lemma condition_spec : forall nss y c, namespaces_ok cl nss -> parse_condition cl net sa nss mk y = Some c ->
  exists m, y = YMap m /\ (condition_benign m ->
    match c with
    | OnPeers s => pok reg s /\ forall x n, pt_in x s <-> condition_matches cl net sa m x n
    | OnConns c => ok c /\ forall pt x, space pt -> (pt @ c <-> condition_matches cl net sa m x (pt 4))
    | Neither => False
    end).
Proof using R Hc Hk HC Hp Hnet.
  intros nss y c N E. unfold parse_condition in E. destruct (check_fields y _) as [m|] eqn:Em; [|discriminate]. cbn [bind] in E.
  apply check_fields_map in Em as [-> F]. exists m. split; auto. intros (B1 & B2 & B3 & B4 & B5 & B6). destruct (negb _) eqn:En; [discriminate|]. cbv zeta in E.
  match type of E with (if negb ?b then _ else _) = _ => destruct b eqn:Ene; cbn [negb] in E; [|discriminate] end.
  assert (G : given m "values" \/ given m "notValues").
  { apply orb_true_iff in Ene as [H|H]; unfold not_empty in H.
    - left. destruct (list_at m "values") as [l|] eqn:El; [|discriminate]. exists l. apply list_at_given; auto.
    - right. destruct (list_at m "notValues") as [l|] eqn:El; [|discriminate]. exists l. apply list_at_given; auto. }
  destruct (yget m "key") as [| | | |key| |] eqn:Ek; try discriminate.
  assert (CM : forall x n, condition_matches cl net sa m x n <->
    (key = "source.ip" -> ip_match net m "values" "notValues" x) /\ (key = "source.namespace" -> ns_match cl sa m "values" "notValues" x) /\
    (key = "source.principal" -> principal_match cl sa m "values" "notValues" x) /\ (key = "destination.port" -> port_match m "values" "notValues" n)).
  { intros x n. unfold condition_matches. rewrite Ek. split; intros (H1 & H2 & H3 & H4); (repeat apply conj); intros H; (try (apply H1; congruence)); (try (apply H2; congruence));
      (try (apply H3; congruence)); (try (apply H4; congruence)). }
  destruct (String.eqb_spec key "source.ip") as [->|N1].
  - destruct (parse_ips _ _ _) as [s|] eqn:Es; [|discriminate]. injection E as <-.
    destruct (ip_match_spec reg net Hnet m _ _ _ (B4 eq_refl) B2 Es) as [P M]. split; auto. intros x n. rewrite M, CM. clear. split; [intros H; repeat apply conj; auto; discriminate|].
    intros (H & _). auto.
  - destruct (String.eqb_spec key "source.namespace") as [->|N2].
    + destruct (parse_namespaces _ _ _ _) as [s|] eqn:Es; [|discriminate]. injection E as <-.
      destruct (namespaces_spec reg cl Hc HC sa nss m _ _ _ N B2 Es) as [P M]. split; auto. intros x n. rewrite M, CM. clear. split; [intros H; repeat apply conj; auto; discriminate|].
      intros (_ & H & _). auto.
    + destruct (String.eqb_spec key "source.principal") as [->|N3].
      * destruct (parse_principals _ _ _ _) as [s|] eqn:Es; [|discriminate]. injection E as <-.
        destruct (principal_match_spec reg cl Hc Hk HC sa m _ _ _ G (B5 eq_refl) B2 B3 Es) as [P M]. split; auto. intros x n. rewrite M, CM. clear. split; [intros H; repeat apply conj; auto; discriminate|].
        intros (_ & _ & H & _). auto.
      * destruct (String.eqb_spec key "destination.port") as [->|N4].
        -- destruct (istio_ports _ _) as [ports|] eqn:Es; [|discriminate]. cbn [bind] in E. injection E as <-.
           destruct (istio_ports_spec m _ _ _ Es (B6 eq_refl)) as [(P1 & P2 & P3) M1].
           match goal with |- ok (mk ?k) /\ _ => assert (DK : dict_ok std_dom reg k) end.
           { constructor; cbn; auto. }
           destruct (std_conns_of_spec reg R (cl_ports cl) Hp _ DK) as [OK M]. split; [exact OK|].
           intros pt x Sp. rewrite (M pt Sp). unfold dict_rest, dport_in. cbn [k_src k_dst k_proto k_sports k_dports k_methods k_hosts k_paths k_type k_code opt].
           rewrite P2. destruct (space_ranges pt Sp) as [R4 R5]. rewrite CM, <- (M1 _ R4). clear. split.
           ++ intros [_ [H|(nm & pr & [] & _)]]. repeat apply conj; auto; discriminate.
           ++ intros (_ & _ & _ & H). split; [repeat apply conj; auto|auto].
        -- exfalso. cbn [forallb] in F. apply andb_true_iff in F as [F _]. unfold field_ok in F. cbn [f_key f_usage f_type f_values] in F.
           unfold yget in Ek. destruct (assoc_s "key" m) as [v|]; [|discriminate]. subst v. apply andb_true_iff in F as [_ F]. apply orb_true_iff in F as [F|F].
           ++ apply negb_true_iff in F. destruct key; [congruence|discriminate].
           ++ unfold among in F. apply smem_In in F. cbn in F. intuition congruence.
Qed.

(** The conditions of a rule. *)
Lemma conditions_spec : forall nss l p0 c0 st, namespaces_ok cl nss ->
  fold_left (fun acc x => bind acc (fun st => bind (parse_condition cl net sa nss mk x) (fun c =>
                              match c with
                              | OnPeers s => bind (ps_inter (fst st) s) (fun p => Some (p, snd st))
                              | OnConns c => Some (fst st, c_and A (snd st) c)
                              | Neither => Some st
                              end))) l (Some (p0, c0)) = Some st ->
  (forall m, In (YMap m) l -> condition_benign m) -> pok reg p0 -> ok c0 ->
  pok reg (fst st) /\ ok (snd st) /\
  forall pt, space pt -> (pt_in (from pt) (fst st) /\ pt @ snd st <->
    (pt_in (from pt) p0 /\ pt @ c0) /\ forall e, In e l -> exists c, e = YMap c /\ condition_matches cl net sa c (from pt) (pt 4)).
Proof using R Hc Hk HC Hp Hnet.
  induction l as [|e l IH]; intros p0 c0 st N E B P0 O0; cbn [fold_left bind] in E.
  - injection E as <-. cbn [fst snd]. split; auto. split; auto. intros pt Sp. split; [intros H; split; auto; intros e []|tauto].
  - destruct (parse_condition cl net sa nss mk e) as [c|] eqn:Ec; cbn [bind] in E; [|rewrite fold_none in E; discriminate].
    destruct (condition_spec nss e c N Ec) as (m & -> & M). specialize (M (B m (or_introl eq_refl))).
    assert (X : forall Q : yaml -> Prop, (forall e, In e (YMap m :: l) -> Q e) <-> Q (YMap m) /\ forall e, In e l -> Q e).
    { intros Q. cbn [In]. split; [intros H; split; auto|intros [H1 H2] e [<-|H]; auto]. }
    assert (X2 : forall x n, (exists c, YMap m = YMap c /\ condition_matches cl net sa c x n) <-> condition_matches cl net sa m x n).
    { intros x n. split; [intros (c' & H & H'); injection H as <-; auto|eauto]. }
    destruct c as [s|c|]; [| |destruct M]; cbn [fst snd] in E.
    + destruct M as [Ps M]. destruct (inter_pok reg _ _ P0 Ps) as (u & Eu & Pu & Mu). rewrite Eu in E. cbn [bind] in E.
      destruct (IH _ _ _ N E (fun m H => B m (or_intror H)) Pu O0) as (I1 & I2 & I3). split; auto. split; auto. intros pt Sp.
      rewrite (I3 pt Sp), Mu, (M _ (pt 4)), X, X2. tauto.
    + destruct M as [Oc M]. assert (Oa : ok (c_and A c0 c)) by exact (l_and_ok _ _ _ _ _ _ _ _ _ W c0 c O0 Oc).
      destruct (IH _ _ _ N E (fun m H => B m (or_intror H)) P0 Oa) as (I1 & I2 & I3). split; auto. split; auto. intros pt Sp.
      assert (Ma : pt @ c_and A c0 c <-> pt @ c0 /\ pt @ c) by exact (l_and _ _ _ _ _ _ _ _ _ W c0 c pt O0 Oc Sp).
      rewrite (I3 pt Sp), Ma, (M pt (from pt) Sp), X, X2. tauto.
Qed.

(** The operations of a rule. *)
Lemma operations_spec : forall l c0 c, fold_left (fun acc x => bind acc (fun r => bind (parse_operation O dfa mk x) (fun c => Some (c_or A r c)))) l (Some c0) = Some c ->
  (forall e m, In e l -> entry_of "operation" e m -> operation_benign m) -> ok c0 ->
  ok c /\ forall pt h p, space pt -> words_at pt h p ->
    (pt @ c <-> pt @ c0 \/ exists e m, In e l /\ entry_of "operation" e m /\ operation_matches m (pt 4) (pt 5) h p).
Proof using R Hp CO.
  induction l as [|e l IH]; intros c0 c E B O0; cbn [fold_left bind] in E.
  - injection E as <-. split; auto. intros pt h p Sp Hw. split; auto. intros [H|(e & m & [] & _)]; auto.
  - destruct (parse_operation O dfa mk e) as [q|] eqn:Eq; cbn [bind] in E; [|rewrite fold_none in E; discriminate].
    destruct (operation_spec e q Eq) as (m & Hm & M). destruct (M (B e m (or_introl eq_refl) Hm)) as [Oq Mq].
    assert (Oo : ok (c_or A c0 q)) by exact (l_or_ok _ _ _ _ _ _ _ _ _ W c0 q O0 Oq).
    destruct (IH _ _ E (fun e m H => B e m (or_intror H)) Oo) as [I1 I2]. split; auto. intros pt h p Sp Hw.
    assert (Mo : pt @ c_or A c0 q <-> pt @ c0 \/ pt @ q) by exact (l_or _ _ _ _ _ _ _ _ _ W c0 q pt O0 Oq Sp).
    rewrite (I2 pt h p Sp Hw), Mo, (Mq pt h p Sp Hw). cbn [In]. split.
    + intros [[H|H]|(k & m' & H & H')]; [auto|right; exists e, m; auto|right; exists k, m'; auto].
    + intros [H|(k & m' & [<-|H] & H1 & H2)]; [auto| |right; exists k, m'; auto].
      left. right. destruct Hm as (d & -> & Ed), H1 as (d' & Ed' & Ed2). injection Ed' as <-. rewrite Ed in Ed2. injection Ed2 as <-. exact H2.
Qed.
Lemma tcp_spec : ok (tcp_props mk) /\ forall pt, space pt -> (pt @ tcp_props mk <-> pt 2 = 6%Z).
Proof using R Hp.
  unfold tcp_props. match goal with |- ok (mk ?k) /\ _ => assert (DK : dict_ok std_dom reg k) end.
  { constructor; cbn; auto. split; [cbn; lia|]. intros z Hz. apply one_mem in Hz. lia. }
  destruct (std_conns_of_spec reg R (cl_ports cl) Hp _ DK) as [OK M]. split; [exact OK|].
  intros pt Sp. rewrite (M pt Sp). unfold dict_rest, single. cbn [k_src k_dst k_proto k_sports k_dports k_methods k_hosts k_paths k_type k_code opt]. rewrite one_mem. clear.
  split; [intros [(_ & _ & H & _) _]; lia|]. intros H. split; auto. repeat apply conj; auto; rewrite H; discriminate.
Qed.
Lemma rect_spec : forall s d, pok reg s -> pok reg d -> let k := CDict (Some s) (Some d) None None None None None None None None in
  ok (mk k) /\ forall pt, space pt -> (pt @ mk k <-> pt_in (from pt) s /\ pt_in (to pt) d).
Proof using R Hp.
  intros s d Ps Pd k. assert (DK : dict_ok std_dom reg k) by (constructor; cbn; auto).
  destruct (std_conns_of_spec reg R (cl_ports cl) Hp _ DK) as [OK M]. split; [exact OK|].
  intros pt Sp. rewrite (M pt Sp). unfold dict_rest, k. cbn [k_src k_dst k_proto k_sports k_dports k_methods k_hosts k_paths k_type k_code opt]. clear. tauto.
Qed.

Definition rule_benign (m : list (string * yaml)) : Prop :=
  (forall l e s, yget m "from" = YList l -> In e l -> entry_of "source" e s -> source_benign cl sa s) /\
  (forall l e o, yget m "to" = YList l -> In e l -> entry_of "operation" e o -> operation_benign o) /\
  (forall l c, yget m "when" = YList l -> In (YMap c) l -> condition_benign c).
Lemma pbool_false : forall s, pbool s = false -> s = [].
Proof using. intros [|p s] H; [reflexivity|discriminate]. Qed.
Theorem istio_rule_spec : forall nss sel y r, namespaces_ok cl nss -> pok reg sel -> (forall x, pt_in x sel -> member (cl_peers cl) x) ->
  istio_rule cl net sa O dfa nss A mk all sel y = Some r ->
  r_action r = Allow /\ exists m, y = YMap m /\ (rule_benign m -> ok (r_props r) /\
    (forall pt, space pt -> pt @ r_props r -> pt_in (to pt) sel) /\
    forall pt h p, space pt -> words_at pt h p ->
      (pt @ r_props r <-> istio_rule_matches cl net sa m (from pt) (pt 2) (pt 4) (pt 5) h p /\ pt_in (to pt) sel)).
Proof using R Hc Hk HC Hp Hnet CO.
  intros nss sel y r N Psel Hsel E. unfold istio_rule in E. destruct (check_fields y _) as [m|] eqn:Em; [|discriminate]. cbn [bind] in E.
  apply check_fields_map in Em as [-> F]. destruct (negb (none_null m _)) eqn:Nn; [discriminate|]. apply negb_false_iff in Nn.
  match type of E with bind ?e _ = _ => destruct e as [peers|] eqn:E1; [|discriminate] end. cbn [bind] in E.
  match type of E with bind ?e _ = _ => destruct e as [conns0|] eqn:E2; [|discriminate] end. cbn [bind] in E.
  match type of E with bind ?e _ = _ => destruct e as [st|] eqn:E3; [|discriminate] end. cbn [bind] in E. cbv zeta in E. injection E as <-. cbn [r_action r_props].
  split; auto. exists m. split; auto. intros (B1 & B2 & B3).
  destruct (source_points reg cl HC) as [PS MS]. destruct tcp_spec as [Ot Mt].
  (* sources *)
  assert (S1 : pok reg peers /\ forall x, pt_in x peers <-> source_point cl x /\
            (given m "from" -> exists l e s, yget m "from" = YList l /\ In e l /\ entry_of "source" e s /\ source_matches cl net sa s x)).
  { destruct (array_of m "from") as [o|] eqn:Ea; [|discriminate]. cbn [bind] in E1. unfold array_of in Ea. destruct o as [l|].
    - assert (El : yget m "from" = YList l) by (destruct (yget m "from") as [| | | | |[|a l']|]; congruence).
      destruct (union_all_spec reg (parse_source cl net sa nss) (fun x e => exists s, entry_of "source" e s /\ source_matches cl net sa s x) l) with (r := @nil peer) (s := peers) as [P M]; auto.
      { intros y s Hy Es. destruct (source_spec reg cl Hc Hk HC net Hnet sa nss y s N Es) as (k & Hk' & M). destruct (M (B1 l y k El Hy Hk')) as [M1 M2]. split; auto.
        intros x. rewrite M2. split; [eauto|]. intros (k' & H1 & H2). destruct Hk' as (d & -> & Ed), H1 as (d' & Ed' & Ed2). injection Ed' as <-. rewrite Ed in Ed2. injection Ed2 as <-. exact H2. }
      { apply pok_nil. }
      split; auto. intros x. rewrite M. pose proof (nil_pt x) as Z. split.
      + intros [H|(e & He & s & H1 & H2)]; [tauto|]. split; [apply H2|]. intros _. exists l, e, s. auto.
      + intros [_ H]. destruct H as (l' & e & s & El' & He & H1 & H2); [exists l; auto|]. rewrite El in El'. injection El' as <-. right. eauto.
    - injection E1 as <-. split; auto. intros x. rewrite MS. split; [|tauto]. intros H. split; auto. intros (l & El). rewrite El in Ea. destruct l; discriminate. }
  (* operations *)
  destruct (peers_group_spec reg (cl_peers cl) true true HC) as [PG MG].
  assert (S2 : ok conns0 /\ forall pt h p, space pt -> words_at pt h p -> source_point cl (from pt) -> member (cl_peers cl) (to pt) ->
            (pt @ conns0 <-> (given m "to" -> pt 2 = 6%Z /\ exists l e o, yget m "to" = YList l /\ In e l /\ entry_of "operation" e o /\ operation_matches o (pt 4) (pt 5) h p))).
  { destruct (array_of m "to") as [o|] eqn:Ea; [|discriminate]. cbn [bind] in E2. unfold array_of in Ea. destruct o as [l|].
    - assert (El : yget m "to" = YList l) by (destruct (yget m "to") as [| | | | |[|a l']|]; congruence).
      match type of E2 with bind ?e _ = _ => destruct e as [c|] eqn:Ec; [|discriminate] end. cbn [bind] in E2. injection E2 as <-.
      assert (Oe : ok (c_empty A)) by exact (l_empty_ok _ _ _ _ _ _ _ _ _ W).
      destruct (operations_spec l _ _ Ec (fun e k => B2 l e k El) Oe) as [O1 M1].
      split; [exact (l_and_ok _ _ _ _ _ _ _ _ _ W c _ O1 Ot)|]. intros pt h p Sp Hw _ _.
      assert (Ma : pt @ c_and A c (tcp_props mk) <-> pt @ c /\ pt @ tcp_props mk) by exact (l_and _ _ _ _ _ _ _ _ _ W c _ pt O1 Ot Sp).
      assert (Me : ~ pt @ c_empty A) by exact (l_empty _ _ _ _ _ _ _ _ _ W pt).
      refine (iff_trans Ma _). rewrite (M1 pt h p Sp Hw), (Mt pt Sp). split.
      + intros [[H|(e & k & H1 & H2 & H3)] H4] _; [tauto|]. split; auto. exists l, e, k. auto.
      + intros H. destruct H as [H4 (l' & e & k & El' & H1 & H2 & H3)]; [exists l; auto|]. rewrite El in El'. injection El' as <-. split; auto. right. eauto.
    - injection E2 as <-. destruct (rect_spec _ _ PG PG) as [O1 M1]. split; auto. intros pt h p Sp _ Hs Hd. rewrite (M1 pt Sp), !MG. split.
      + intros _ (l & El). rewrite El in Ea. destruct l; discriminate.
      + intros _. unfold source_point in Hs. tauto. }
  (* conditions *)
  destruct S1 as [P1 M1]. destruct S2 as [O2 M2].
  assert (Oa : ok all) by (apply hall_obj; discriminate).
  assert (Ma : forall pt, pt @ all) by (intros pt; apply hall_denot).
  assert (S3 : pok reg (fst st) /\ ok (snd st) /\ forall pt, space pt -> (pt_in (from pt) (fst st) /\ pt @ snd st <-> pt_in (from pt) peers /\
            (given m "when" -> pt 2 = 6%Z /\ forall l e, yget m "when" = YList l -> In e l -> exists c, e = YMap c /\ condition_matches cl net sa c (from pt) (pt 4)))).
  { destruct (list_at m "when") as [l|] eqn:El.
    - apply list_at_given in El. match type of E3 with bind ?e _ = _ => destruct e as [st'|] eqn:Es; [|discriminate] end. cbn [bind] in E3. injection E3 as <-.
      destruct (conditions_spec nss l peers all st' N Es (fun k => B3 l k El) P1 Oa) as (I1 & I2 & I3). cbn [fst snd]. split; auto.
      split; [exact (l_and_ok _ _ _ _ _ _ _ _ _ W _ _ I2 Ot)|]. intros pt Sp.
      assert (Mb : pt @ c_and A (snd st') (tcp_props mk) <-> pt @ snd st' /\ pt @ tcp_props mk) by exact (l_and _ _ _ _ _ _ _ _ _ W _ _ pt I2 Ot Sp).
      enough (Q : pt_in (from pt) (fst st') /\ pt @ snd st' /\ pt @ tcp_props mk <-> pt_in (from pt) peers /\ (given m "when" -> pt 2 = 6%Z /\ forall l e, yget m "when" = YList l -> In e l -> exists c, e = YMap c /\ condition_matches cl net sa c (from pt) (pt 4))).
      { refine (iff_trans (and_iff_compat_l _ Mb) Q). }
      rewrite (Mt pt Sp). specialize (I3 pt Sp). pose proof (Ma pt) as Mp. split.
      + intros (H1 & H2 & H3). assert (H4 : pt_in (from pt) (fst st') /\ pt @ snd st') by auto. apply I3 in H4 as [[H4 _] H5]. split; auto. intros _. split; auto.
        intros l' e El'. rewrite El in El'. injection El' as <-. auto.
      + intros [H1 H2]. destruct H2 as [H2 H3]; [exists l; auto|]. assert (H4 : pt_in (from pt) (fst st') /\ pt @ snd st'); [|tauto]. apply I3. split; [auto|]. intros e He. apply (H3 l e El He).
    - injection E3 as <-. apply list_at_none in El. cbn [fst snd]. split; auto. split; auto. intros pt Sp. pose proof (Ma pt). tauto. }
  destruct S3 as (P3 & O3 & M3).
  destruct (rect_spec _ _ P3 Psel) as [O4 M4].
  assert (Oe : ok (c_empty A)) by exact (l_empty_ok _ _ _ _ _ _ _ _ _ W).
  set (cond := if negb (pbool (fst st)) || negb (pbool sel) then c_empty A else c_and A (snd st) (mk (CDict (Some (fst st)) (Some sel) None None None None None None None None))) in *.
  assert (S5 : ok cond /\ forall pt, space pt -> (pt @ cond <-> (pt_in (from pt) (fst st) /\ pt @ snd st) /\ pt_in (to pt) sel)).
  { unfold cond. destruct (negb (pbool (fst st)) || negb (pbool sel)) eqn:Eb.
    - split; auto. intros pt Sp. assert (Me : ~ pt @ c_empty A) by exact (l_empty _ _ _ _ _ _ _ _ _ W pt). split; [tauto|].
      intros [[H1 _] H2]. exfalso. apply orb_true_iff in Eb as [Eb|Eb]; apply negb_true_iff, pbool_false in Eb; rewrite Eb in *; [apply (nil_pt _ H1)|apply (nil_pt _ H2)].
    - split; [exact (l_and_ok _ _ _ _ _ _ _ _ _ W _ _ O3 O4)|]. intros pt Sp.
      match goal with |- pt @ c_and A ?a ?b <-> _ => assert (Mc : pt @ c_and A a b <-> pt @ a /\ pt @ b) by exact (l_and _ _ _ _ _ _ _ _ _ W a b pt O3 O4 Sp) end.
      refine (iff_trans Mc _). rewrite (M4 pt Sp). tauto. }
  destruct S5 as [O5 M5]. split; [exact (l_and_ok _ _ _ _ _ _ _ _ _ W _ _ O2 O5)|].
  assert (Mf : forall pt, space pt -> (pt @ c_and A conns0 cond <-> pt @ conns0 /\ pt @ cond)) by (intros pt Sp; exact (l_and _ _ _ _ _ _ _ _ _ W _ _ pt O2 O5 Sp)).
  split. { intros pt Sp H. pose proof (proj1 (Mf pt Sp) H) as [_ H1]. apply (M5 pt Sp) in H1. apply H1. }
  intros pt h p Sp Hw. refine (iff_trans (Mf pt Sp) _). rewrite (M5 pt Sp), (M3 pt Sp), M1. unfold istio_rule_matches. split.
  - intros (H1 & [[H2 H3] H4] & H5). pose proof (proj1 (M2 pt h p Sp Hw H2 (Hsel _ H5)) H1) as H6. auto.
  - intros [(H1 & H2 & H3 & H4) H5]. split; [exact (proj2 (M2 pt h p Sp Hw H1 (Hsel _ H5)) H3)|]. auto.
Qed.
End Rules.
