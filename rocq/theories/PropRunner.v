(** * C35: exit codes encode what happened *)
From Coq Require Import ZArith List Bool Arith Lia String Ascii.
From Verif Require Import QueryModel RunnerModel.
Import ListNotations.
Local Open Scope string_scope.
Local Open Scope list_scope.
Local Open Scope nat_scope.

(** ** Summing over the executions *)
Definition zsum (l : list Z) : Z := fold_right Z.add 0%Z l.
Definition times_skipped (its : list iteration) : Z := Z.of_nat (List.length (filter i_skip its)).

Lemma zsum_app : forall a b, zsum (a ++ b) = (zsum a + zsum b)%Z.
Proof. unfold zsum. induction a; intros b; cbn [app fold_right]; [reflexivity|]. rewrite IHa. lia. Qed.

Lemma run_all_sums : forall l q q', run_all q l = Some q' ->
  exists its, l = map Some its /\ r_num q' = (r_num q + zsum (map i_num its))%Z /\
              r_skipped q' = (r_skipped q + times_skipped its)%Z /\ r_outs q' = r_outs q ++ map i_out its /\
              r_full q' = r_full q || existsb i_full its.
Proof.
  induction l as [|[i|] l IH]; cbn [run_all]; intros q q' H; try discriminate.
  - injection H as <-. exists []. cbn. rewrite app_nil_r, orb_false_r. repeat split; lia.
  - destruct (IH _ _ H) as (its & -> & H1 & H2 & H3 & H4). exists (i :: its). cbn [update r_num r_skipped r_outs r_full] in *.
    split; [reflexivity|]. rewrite H1, H2, H3, H4. unfold times_skipped. cbn [map zsum fold_right filter existsb].
    repeat split; try (unfold zsum; lia).
    + destruct (i_skip i); cbn [bz List.length]; lia.
    + rewrite <- app_assoc. reflexivity.
    + rewrite orb_assoc. reflexivity.
Qed.
Lemma run_all_raises : forall l q, run_all q l = None <-> In None l.
Proof.
  induction l as [|[i|] l IH]; intros q; cbn [run_all In].
  - split; [discriminate|tauto].
  - rewrite IH. split; [auto|intros [X|X]; [discriminate|exact X]].
  - split; auto.
Qed.

Section Run.
Context {Name : Type} (name_eqb : Name -> Name -> bool) (ok : forall a b, name_eqb a b = true <-> a = b)
        (exec1 : Name -> option iteration) (exec2 : Name -> Name -> option iteration)
        (full : bool) (finish : list string -> string) (compare : option (string -> Z)).
Local Notation run := (run_query name_eqb exec1 exec2 full finish compare).
(** The executions of a query of some type on a list of configurations. *)
Definition executions (t : qtype) (configs : list Name) (l : list (option iteration)) : Prop :=
  match t with
  | SingleConfig => Forall2 (fun c r => exec1 c = r) configs l
  | _ => Forall2 (fun ab r => exec2 (fst ab) (snd ab) = r) (pairs_of name_eqb t configs) l
  end.
(** The result of a run is the sum of the results of its executions; it counts those that were not executed; the outputs
    are compared, all together, if there is something to compare with and the query explains its result in full.  A run
    raises an exception exactly if one of its executions does. *)
Theorem C35_sums : forall t configs, (t = SingleConfig \/ 2 <= List.length configs) ->
  exists l, executions t configs l /\
    ((In None l /\ run t configs = Raised) \/
     exists its, l = map Some its /\
       run t configs = Triple (zsum (map i_num its))
         (match compare with
          | Some cmp => if full || existsb i_full its then cmp (finish (map i_out its)) else 0%Z
          | None => 0%Z end)
         (times_skipped its)).
Proof using.
  intros t configs H.
  set (l := match t with SingleConfig => map exec1 configs | _ => map (fun ab => exec2 (fst ab) (snd ab)) (pairs_of name_eqb t configs) end).
  assert (F : forall {X Y} (f : X -> Y) xs, Forall2 (fun a r => f a = r) xs (map f xs)).
  { intros X Y f xs. induction xs; cbn; constructor; auto. }
  exists l. split; [unfold executions, l; destruct t; apply F|].
  assert (E : run t configs = match run_all (q0 full) l with
    | None => Raised
    | Some q => Triple (r_num q) (match compare with Some cmp => if r_full q then cmp (finish (r_outs q)) else 0%Z | None => 0%Z end) (r_skipped q)
    end).
  { unfold run_query. fold l. destruct H as [-> |H]; [reflexivity|]. destruct (Nat.leb_spec (List.length configs) 1) as [X|X]; [lia|].
    destruct t; reflexivity. }
  rewrite E. clear E. destruct (run_all (q0 full) l) as [q|] eqn:R.
  - right. destruct (run_all_sums _ _ _ R) as (its & E & E1 & E2 & E3 & E4). exists its. split; [exact E|].
    cbn [q0 r_num r_skipped r_outs r_full app] in *. rewrite E1, E2, E3, E4, !Z.add_0_l. reflexivity.
  - left. split; [|reflexivity]. apply (run_all_raises l (q0 full)). exact R.
Qed.

(** Which pairs of configurations are compared. *)
Theorem C35_base_pairs : forall b l x y, In (x, y) (pairs_of name_eqb ToBase (b :: l)) <-> In x l /\ y = b.
Proof using.
  intros b l x y. cbn [pairs_of base_pairs]. rewrite in_map_iff. split.
  - intros (c & E & H). injection E as <- <-. auto.
  - intros [H ->]. exists x. auto.
Qed.
Lemma followed_indices_spec : forall n i j, In (i, j) (followed_indices n) <-> i < j < n.
Proof using.
  intros n i j. unfold followed_indices. rewrite in_flat_map. split.
  - intros (k & H & X). apply in_map_iff in X as (m & E & X). injection E as <- <-. apply in_seq in H. apply in_seq in X. lia.
  - intros H. exists i. split; [apply in_seq; lia|]. apply in_map_iff. exists j. split; [reflexivity|]. apply in_seq. lia.
Qed.
Lemma followed_nodup : forall n, NoDup (followed_indices n).
Proof using.
  intros n. unfold followed_indices.
  assert (G : forall l, NoDup l -> NoDup (flat_map (fun i => map (fun j => (i, j)) (seq (i + 1) (n - (i + 1)))) l)).
  { induction l as [|i l IH]; intros ND; cbn [flat_map]; [constructor|]. inversion_clear ND as [|? ? X Y].
    assert (D : forall a b : list (nat * nat), NoDup a -> NoDup b -> (forall z, In z a -> ~ In z b) -> NoDup (a ++ b)).
    { induction a as [|z a IHa]; intros b Na Nb H; [exact Nb|]. cbn [app]. inversion_clear Na as [|? ? P Q]. constructor.
      - rewrite in_app_iff. intros [Z|Z]; [exact (P Z)|]. exact (H z (or_introl eq_refl) Z).
      - apply IHa; auto. intros w W. apply H. right. exact W. }
    apply D; [|apply IH; exact Y|].
    - apply FinFun.Injective_map_NoDup; [intros a b E; injection E as E; exact E|apply seq_NoDup].
    - intros z H1 H2. apply in_map_iff in H1 as (j & <- & _). apply in_flat_map in H2 as (k & H & Z). apply in_map_iff in Z as (m & E & _).
      injection E as -> ->. exact (X H). }
  apply G. apply seq_NoDup.
Qed.
(** Each configuration is compared once with each configuration after it in the list. *)
Theorem C35_pair_comparison : forall l,
  exists idx, NoDup idx /\ (forall i j, In (i, j) idx <-> i < j < List.length l) /\
    Forall2 (fun ij ab => nth_error l (fst ij) = Some (fst ab) /\ nth_error l (snd ij) = Some (snd ab))
            idx (pairs_of name_eqb PairComparison l).
Proof using.
  intros l. exists (followed_indices (List.length l)). split; [apply followed_nodup|]. split; [apply followed_indices_spec|].
  cbn [pairs_of]. unfold followed_pairs.
  assert (H : forall i j, In (i, j) (followed_indices (List.length l)) -> i < List.length l /\ j < List.length l).
  { intros i j X. apply followed_indices_spec in X. lia. }
  induction (followed_indices (List.length l)) as [|[i j] idx IH]; [constructor|]. cbn [flat_map fst snd].
  destruct (H i j (or_introl eq_refl)) as [H1 H2].
  apply nth_error_Some in H1, H2. destruct (nth_error l i) as [a|] eqn:E1; [|congruence]. destruct (nth_error l j) as [b|] eqn:E2; [|congruence].
  cbn [app]. constructor; [cbn [fst snd]; auto|]. apply IH. intros i' j' X. apply H. right. exact X.
Qed.
(** Every configuration is compared with every other one. *)
Theorem C35_all_pairs : forall l x y, In (x, y) (pairs_of name_eqb AllPairs l) <-> In x l /\ In y l /\ x <> y.
Proof using ok.
  intros l x y. cbn [pairs_of]. unfold all_pairs. rewrite in_flat_map. split.
  - intros (a & Ha & X). apply in_flat_map in X as (b & Hb & X). destruct (name_eqb a b) eqn:E; [destruct X|]. cbn in X. destruct X as [X|[]].
    injection X as <- <-. split; [exact Ha|]. split; [exact Hb|]. intros X. apply ok in X. congruence.
  - intros (Hx & Hy & N). exists x. split; [exact Hx|]. apply in_flat_map. exists y. split; [exact Hy|].
    destruct (name_eqb x y) eqn:E; [apply ok in E; contradiction|]. left. reflexivity.
Qed.
(** With fewer than two configurations a comparison returns something its callers cannot use: the command line and the
    scheme runner raise an exception. *)
Theorem C35_one_config_refuted : forall t c, t <> SingleConfig -> run t [c] = PlainZero /\ pair_exit (run t [c]) = None.
Proof using. intros t c H. destruct t; [congruence|split; reflexivity..]. Qed.
End Run.

(** ** Comparison with the expected output *)
Lemma golden_loop_spec : forall golden i num actual,
  match golden_loop i num golden actual with
  | Some m => (exists rest, skipn i actual = map rstrip golden ++ rest) /\
              m = match golden with [] => num | _ => i + List.length golden - 1 end
  | None => ~ exists rest, skipn i actual = map rstrip golden ++ rest
  end.
Proof.
  induction golden as [|g golden IH]; intros i num actual; cbn [golden_loop].
  { split; [|reflexivity]. exists (skipn i actual). reflexivity. }
  destruct (Nat.leb_spec (List.length actual) i) as [L|L].
  { intros (rest & E). rewrite skipn_all2 in E by exact L. discriminate. }
  assert (S : skipn i actual = nth i actual "" :: skipn (i + 1) actual).
  { clear - L. revert i L. induction actual as [|a actual IH]; intros i L; [cbn in L; lia|]. destruct i as [|i]; [reflexivity|].
    cbn [skipn nth]. cbn in L. rewrite (IH i) by lia. reflexivity. }
  destruct (String.eqb_spec (rstrip g) (nth i actual "")) as [E|E]; cbn [negb].
  - specialize (IH (i + 1) i actual). destruct (golden_loop (i + 1) i golden actual) as [m|].
    + destruct IH as [(rest & X) M]. split; [exists rest; rewrite S, X; cbn [map app]; rewrite E; reflexivity|].
      destruct golden; cbn [List.length] in *; lia.
    + intros (rest & X). apply IH. exists rest. rewrite S in X. cbn [map app] in X. injection X as _ X. exact X.
  - intros (rest & X). rewrite S in X. cbn [map app] in X. injection X as X _. congruence.
Qed.
Definition blank_lines (l : list string) : Prop := forall s, In s l -> s = "".
(** The comparison succeeds exactly if the lines of the file, without trailing white space, are the lines of the output
    followed by nothing but empty lines.  The file must have at least one line. *)
Theorem C35_comparison : forall golden actual, golden <> [] ->
  compare_output golden actual = 0%Z <-> exists rest, actual = map rstrip golden ++ rest /\ blank_lines rest.
Proof.
  intros golden actual NE. unfold compare_output. pose proof (golden_loop_spec golden 0 0 actual) as G.
  cbn [skipn] in G. destruct (golden_loop 0 0 golden actual) as [m|].
  2:{ split; [discriminate|]. intros (rest & E & _). exfalso. apply G. eauto. }
  destruct G as [(rest & E) M]. assert (M' : m = List.length golden - 1) by (destruct golden; [congruence|exact M]). clear M. subst m.
  assert (LG : 1 <= List.length golden) by (destruct golden; [congruence|cbn; lia]).
  assert (LA : List.length actual = List.length golden + List.length rest) by (rewrite E, app_length, map_length; reflexivity).
  assert (NTH : forall k, nth (List.length golden + k) actual "" = nth k rest "").
  { intros k. rewrite E, app_nth2; rewrite map_length; [|lia]. f_equal. lia. }
  assert (B : existsb (fun i => negb (String.eqb (nth i actual "") "")) (seq (List.length golden - 1 + 1) (List.length actual - (List.length golden - 1 + 1))) = false <-> blank_lines rest).
  { replace (List.length golden - 1 + 1) with (List.length golden) by lia. replace (List.length actual - List.length golden) with (List.length rest) by lia.
    split.
    - intros H s Hs. destruct (In_nth rest s "" Hs) as (k & L & <-). rewrite <- NTH.
      destruct (String.eqb_spec (nth (List.length golden + k) actual "") "") as [X|X]; [exact X|]. exfalso.
      assert (Y : existsb (fun i => negb (String.eqb (nth i actual "") "")) (seq (List.length golden) (List.length rest)) = true).
      { apply existsb_exists. exists (List.length golden + k). split; [apply in_seq; lia|]. apply String.eqb_neq in X. rewrite X. reflexivity. }
      congruence.
    - intros H. destruct (existsb _ _) eqn:X; [|reflexivity]. apply existsb_exists in X as (i & X & Y). apply in_seq in X.
      replace i with (List.length golden + (i - List.length golden)) in Y by lia. rewrite NTH in Y.
      rewrite (H (nth (i - List.length golden) rest "")) in Y; [discriminate|]. apply nth_In. lia. }
  assert (Z0 : (if negb (List.length golden - 1 =? List.length actual - 1)
    then if existsb (fun i => negb (String.eqb (nth i actual "") "")) (seq (List.length golden - 1 + 1) (List.length actual - (List.length golden - 1 + 1))) then 1%Z else 0%Z else 0%Z) = 0%Z <-> blank_lines rest).
  { destruct (Nat.eqb_spec (List.length golden - 1) (List.length actual - 1)) as [X|X]; cbn [negb].
    - assert (rest = []) as -> by (destruct rest; [reflexivity|cbn in LA; lia]). split; [intros _ s []|reflexivity].
    - rewrite <- B. destruct (existsb _ _); split; congruence. }
  rewrite Z0. clear B Z0. split; [intros H; exists rest; auto|]. intros (rest' & E' & H). rewrite E in E'. apply app_inv_head in E' as ->. exact H.
Qed.
(** A file without lines is not compared with the first line of the output. *)
Theorem C35_empty_file_refuted : forall line, compare_output [] [line] = 0%Z.
Proof. reflexivity. Qed.
(** An output stored as the expected one is accepted again, if none of its lines ends in white space. *)
Definition no_trailing (l : list string) : Prop := forall s, In s l -> rstrip s = s.
Lemma split_nonempty : forall s, split_nl s <> [].
Proof. induction s as [|c s IH]; cbn [split_nl]; [discriminate|]. destruct (Ascii.eqb c "010"); [discriminate|]. destruct (split_nl s); discriminate. Qed.
Lemma split_empty : forall s, split_nl s = [""] -> s = "".
Proof.
  destruct s as [|c s]; [reflexivity|]. cbn [split_nl]. destruct (Ascii.eqb c "010").
  - intros H. injection H as H. exfalso. exact (split_nonempty s H).
  - destruct (split_nl s); discriminate.
Qed.
Theorem C35_stored_output : forall text, no_trailing (split_nl text) -> compare_file false false (Some text) text = 0%Z.
Proof.
  intros text H. unfold compare_file. destruct (string_dec text "") as [->|N]; [reflexivity|].
  assert (FL : file_lines text = (let l := split_nl text in match last l "x" with EmptyString => removelast l | _ => l end)).
  { unfold file_lines. destruct text; [congruence|reflexivity]. }
  assert (NE := split_nonempty text). assert (SE := split_empty text). cbn zeta in FL. rewrite FL. clear FL.
  destruct (exists_last NE) as (l & z & E). rewrite E in *. clear NE E. rewrite last_last, removelast_last.
  assert (MP : forall k, (forall s, In s k -> In s (l ++ [z])) -> map rstrip k = k).
  { intros k. induction k as [|s k IH]; intros X; [reflexivity|]. cbn [map]. rewrite (H s) by (apply X; left; reflexivity).
    f_equal. apply IH. intros t T. apply X. right. exact T. }
  destruct z as [|c z].
  - destruct l as [|a l]; [exfalso; apply N; apply SE; reflexivity|].
    apply C35_comparison; [discriminate|]. exists [""]. split; [|intros s [<-|[]]; reflexivity].
    rewrite MP; [reflexivity|]. intros s Hs. apply in_or_app. left. exact Hs.
  - apply C35_comparison; [destruct l; discriminate|]. exists []. split; [|intros s []]. rewrite MP; [rewrite app_nil_r; reflexivity|auto].
Qed.
(** Outside the test modes, a comparison with a file succeeds exactly if the file exists and its lines are those of the output. *)
Theorem C35_file_comparison : forall file output, (forall text, file = Some text -> text <> "") ->
  (compare_file false false file output = 0%Z <->
   exists text rest, file = Some text /\ split_nl output = map rstrip (file_lines text) ++ rest /\ blank_lines rest) /\
  (compare_file false false file output = 0%Z \/ compare_file false false file output = 1%Z).
Proof.
  intros file output NE. unfold compare_file. destruct file as [text|].
  - assert (FL : file_lines text <> []).
    { unfold file_lines. specialize (NE text eq_refl). pose proof (split_nonempty text) as S1. pose proof (split_empty text) as S2. destruct text; [congruence|]. cbn zeta.
      destruct (exists_last S1) as (l & z & E). rewrite E in *. rewrite last_last, removelast_last. destruct z as [|c z]; [|destruct l; discriminate].
      destruct l; [|discriminate]. discriminate (S2 eq_refl). }
    split.
    + rewrite (C35_comparison _ _ FL). split; [intros (rest & H1 & H2); exists text, rest; auto|]. intros (t & rest & E & H). injection E as ->. eauto.
    + unfold compare_output. destruct (golden_loop _ _ _ _); auto. destruct (negb _); auto. destruct (existsb _ _); auto.
  - split; auto. split; [discriminate|]. intros (t & rest & E & _). discriminate.
Qed.
Theorem C35_trailing_space_refuted : exists text, compare_file false true None text = 0%Z /\ compare_file false false (Some text) text = 1%Z.
Proof. exists "a ". split; reflexivity. Qed.
Example comparison_case : compare_file false false (Some ("one " ++ nl ++ "two" ++ nl)%string) ("one" ++ nl ++ "two" ++ nl ++ nl)%string = 0%Z /\
  compare_file false false (Some ("one" ++ nl ++ "two")%string) ("one" ++ nl ++ "2")%string = 1%Z /\
  compare_file false false (Some ("one" ++ nl ++ "two")%string) "one" = 1%Z /\
  compare_file false false (Some "one") ("one" ++ nl ++ nl ++ "two")%string = 1%Z.
Proof. vm_compute. auto. Qed.

(** ** Return values of the command line *)
Definition cmd_answer (a : Z * string * bool) : Prop := fst (fst a) = 0%Z \/ fst (fst a) = 1%Z.
Section Cli.
Context {Cfg : Type} (cfg_eqb : Cfg -> Cfg -> bool)
        (nopeers : Cfg -> bool) (unsupported : switch -> bool) (msg : string)
        (sanity connectivity : Cfg -> option (Z * string * bool))
        (pair_query : switch -> Cfg -> Cfg -> option (Z * string * bool))
        (finish : list string -> string) (expected : option (string -> Z)).
Local Notation args := (run_args cfg_eqb nopeers unsupported msg sanity connectivity pair_query finish expected).
(** Queries on pairs run from the command line give 0 or 1; the connectivity query gives 0 and, as the semantic
    difference query, is always executed; the sanity query does not give negative numbers; comparisons give 0 or 1. *)
Hypothesis pairs_bit : forall s g1 g2 a, pair_query s g1 g2 = Some a -> cmd_answer a.
Hypothesis sanity_count : forall g a, sanity g = Some a -> (0 <= fst (fst a))%Z.
Hypothesis connectivity_zero : forall g a, connectivity g = Some a -> fst (fst a) = 0%Z /\ snd a = false.
Hypothesis diff_executed : forall g1 g2 a, pair_query SwSemanticDiff g1 g2 = Some a -> snd a = false.
Hypothesis compare_bit : forall cmp o, expected = Some cmp -> cmp o = 0%Z \/ cmp o = 1%Z.

(** The one execution of a command: its configurations, its answer. *)
Definition asked (s : switch) (np base : Cfg) : option iteration :=
  match s with
  | SwSanity | SwConnectivity => exec_one nopeers unsupported msg sanity connectivity s np
  | SwEquiv => exec_two nopeers unsupported msg pair_query s np base
  | SwSemanticDiff => exec_two nopeers unsupported msg pair_query s base np
  | SwInterferes => exec_two nopeers unsupported msg pair_query s base np
  | SwForbids | SwPermits => exec_two nopeers unsupported msg pair_query s np base
  end.
Definition compared (s : switch) (i : iteration) : Z :=
  if reads_expected s then match expected with Some cmp => if i_full i then cmp (finish [i_out i]) else 0%Z | None => 0%Z end else 0%Z.
Definition result_bit (s : switch) (i : iteration) : Z := match s with SwSanity => bz (0 <? i_num i)%Z | _ => i_num i end.

Lemma one_execution : forall s np base,
  args s np base = match asked s np base with
                   | None => None
                   | Some i => Some (4 * bz (i_skip i) + 2 * compared s i + match s with SwSanity | SwConnectivity => bz (0 <? i_num i)%Z | _ => i_num i end)%Z
                   end.
Proof using.
  clear. intros s np base. unfold run_args, asked, compared.
  destruct s; cbn [switch_type base_as_second reads_expected run_query pairs_of base_pairs map List.length Nat.leb fst snd
                   followed_pairs followed_indices Nat.sub seq flat_map nth_error app Nat.add];
    (destruct (exec_one _ _ _ _ _ _ _) as [i|] || destruct (exec_two _ _ _ _ _ _ _) as [i|]);
    cbn [run_all q0 update r_num r_skipped r_outs r_full single_exit pair_exit app orb]; try reflexivity;
    unfold return_value; rewrite !Z.add_0_l; try reflexivity; destruct expected as [cmp|]; reflexivity.
Qed.
Lemma asked_facts : forall s np base i, asked s np base = Some i ->
  (result_bit s i = 0 \/ result_bit s i = 1)%Z /\ (compared s i = 0 \/ compared s i = 1)%Z /\
  (i_skip i = true -> compared s i = 0)%Z /\ (s = SwConnectivity -> i_num i = 0%Z).
Proof using pairs_bit sanity_count connectivity_zero diff_executed compare_bit.
  intros s np base i H.
  assert (C : (compared s i = 0 \/ compared s i = 1)%Z).
  { unfold compared. destruct (reads_expected s); [|auto]. destruct expected as [cmp|] eqn:E; [|auto]. destruct (i_full i); [|auto]. exact (compare_bit cmp _ eq_refl). }
  assert (E2 : s <> SwConnectivity -> forall g1 g2, exec_two nopeers unsupported msg pair_query s g1 g2 = Some i ->
            (i_num i = 0 \/ i_num i = 1)%Z /\ (i_skip i = true -> compared s i = 0)%Z).
  { intros NC g1 g2 X. unfold exec_two, execute_in_format in X. unfold compared.
    destruct (nopeers g1 || nopeers g2); [injection X as <-; cbn; split; auto; intros _; destruct (reads_expected s), expected; auto|].
    destruct (unsupported s); [injection X as <-; cbn; split; auto; intros _; destruct (reads_expected s), expected; auto|].
    destruct (pair_query s g1 g2) as [[[n o] sk]|] eqn:P; [|discriminate]. injection X as <-. cbn [i_num i_skip i_full].
    split; [exact (pairs_bit _ _ _ _ P)|]. intros ->. destruct s; cbn [reads_expected assigns_full]; auto.
    - congruence. - destruct expected; auto. pose proof (diff_executed _ _ _ P) as Y. discriminate. }
  unfold asked in H. destruct s; try (apply E2 in H as [N S]; [|discriminate]; cbn [result_bit]; repeat split; auto; discriminate).
  all: unfold exec_one, execute_in_format in H; unfold compared in *; cbn [result_bit reads_expected assigns_full] in *.
  all: destruct (nopeers np); [injection H as <-; cbn; destruct expected; auto 10|].
  all: destruct (unsupported _); [injection H as <-; cbn; destruct expected; auto 10|].
  - destruct (sanity np) as [[[n o] sk]|] eqn:P; [|discriminate]. injection H as <-. cbn [i_num]. destruct (0 <? n)%Z; cbn; repeat split; auto; discriminate.
  - destruct (connectivity np) as [[[n o] sk]|] eqn:P; [|discriminate]. injection H as <-. destruct (connectivity_zero _ _ P) as [Z1 Z2]. cbn in Z1, Z2. subst.
    cbn [i_num i_skip i_full] in *. repeat split; auto. discriminate.
Qed.
(** The return value says whether the query was executed, whether its output was the expected one, and its result. *)
Theorem C35_return_value : forall s np base i, asked s np base = Some i ->
  exists c, args s np base = Some c /\ (0 <= c <= 5)%Z /\
    ((4 <= c)%Z <-> i_skip i = true) /\
    (c = 2 \/ c = 3 <-> compared s i = 1)%Z /\
    Z.odd c = negb (Z.eqb (result_bit s i) 0).
Proof using pairs_bit sanity_count connectivity_zero diff_executed compare_bit.
  intros s np base i H. rewrite one_execution, H. destruct (asked_facts _ _ _ _ H) as (R & C & SC & CZ).
  assert (E : match s with SwSanity | SwConnectivity => bz (0 <? i_num i)%Z | _ => i_num i end = result_bit s i).
  { destruct s; try reflexivity. rewrite (CZ eq_refl). cbn. rewrite (CZ eq_refl). reflexivity. }
  rewrite E. eexists. split; [reflexivity|]. set (r := result_bit s i) in *. set (c := compared s i) in *. clearbody r c.
  destruct (i_skip i).
  - rewrite (SC eq_refl). destruct R as [-> | ->]; cbn; repeat split; auto; try lia; intuition lia.
  - destruct R as [-> | ->], C as [-> | ->]; cbn; repeat split; auto; try lia; try discriminate; intuition lia.
Qed.
(** A query that cannot be evaluated - one of its configurations has no peers, or the output format is not supported -
    is reported as not executed, whatever the rest. *)
Theorem C35_not_evaluated : forall s np base,
  (nopeers np = true \/ (s <> SwSanity /\ s <> SwConnectivity /\ nopeers base = true) \/ unsupported s = true) -> args s np base = Some 4%Z.
Proof using.
  clear pairs_bit sanity_count connectivity_zero diff_executed compare_bit. intros s np base H. rewrite one_execution.
  assert (E : exists o, asked s np base = Some (Iter 0 o true false)).
  { assert (G : forall b f run, b = true \/ unsupported s = true -> exists o, execute_in_format b (unsupported s) f msg run = Some (Iter 0 o true false)).
    { intros b f run Hb. unfold execute_in_format. destruct b; [eauto|]. destruct Hb as [Hb| ->]; [discriminate|eauto]. }
    unfold asked, exec_one, exec_two. destruct s; apply G; rewrite ?orb_true_iff; clear - H; intuition congruence. }
  destruct E as (o & ->). cbn [i_skip i_num]. unfold compared. cbn [i_full]. destruct (reads_expected s), expected; destruct s; reflexivity.
Qed.
(** The value 7 is that of an exception, and of nothing else. *)
Theorem C35_exception : forall s np base, main_value false (option_map Some (args s np base)) = Some 7%Z <-> asked s np base = None.
Proof using pairs_bit sanity_count connectivity_zero diff_executed compare_bit.
  intros s np base. destruct (asked s np base) as [i|] eqn:E.
  - destruct (C35_return_value _ _ _ _ E) as (c & X & B & _). rewrite X. cbn. split; [|discriminate]. intros Y. injection Y as Y. lia.
  - rewrite one_execution, E. cbn. split; reflexivity.
Qed.
Theorem C35_return_0 : forall s np base, main_value true (option_map Some (args s np base)) = Some 0%Z.
Proof using. intros s np base. destruct (args s np base); reflexivity. Qed.
End Cli.
(** Without bounds on its arguments the encoding is not injective. *)
Theorem C35_unbounded_refuted : exists r e n r' e' n', (0 <= r /\ 0 <= e <= 1 /\ 0 <= n /\ 0 <= r' /\ 0 <= e' <= 1 /\ 0 <= n')%Z /\
  return_value r e n = return_value r' e' n' /\ (r, e, n) <> (r', e', n').
Proof. exists 2%Z, 0%Z, 0%Z, 0%Z, 1%Z, 0%Z. repeat split; try lia. discriminate. Qed.

(** ** Scheme files *)
Definition as_expected (e : config_entry) : Prop :=
  match e_parsed e with
  | Parsed w => (forall n, e_warnings e = Some n -> n = w) /\ e_error e <> Some 1%Z
  | _ => e_error e = Some 1%Z
  end.
(** A query with one key gave what the scheme says: the result, the number of times it was not executed, the output. *)
Definition query_as_expected (q : query_entry) (r e n : Z) : Prop :=
  (forall x, q_expected q = Some x -> r = x) /\
  (match q_expected_skip q with Some x => n = x | None => n = 0%Z end) /\ e = 0%Z.
Definition single_key (q : query_entry) (r e n : Z) : Prop := q_runs q = [Triple r e n].
Definition entry_fields (e : config_entry) : Prop :=
  e_parsed e <> OtherErr /\ (e_parsed e = SyntaxErr -> e_error e <> None) /\
  forall n, e_error e = Some n -> n = 0%Z \/ n = 1%Z.

Lemma total_sum : forall l acc, (forall x, In x l -> exists n, x = Some n /\ (0 <= n)%Z) ->
  exists n, total l acc = Some (acc + n)%Z /\ (0 <= n)%Z /\ (n = 0%Z <-> forall x, In x l -> x = Some 0%Z).
Proof.
  induction l as [|x l IH]; intros acc H; cbn [total].
  - exists 0%Z. rewrite Z.add_0_r. repeat split; try lia. intros _ x [].
  - destruct (H x (or_introl eq_refl)) as (n & -> & N). destruct (IH (acc + n)%Z) as (m & E & M & Z0); [intros y Y; apply H; right; exact Y|].
    exists (n + m)%Z. rewrite E. split; [f_equal; lia|]. split; [lia|]. split.
    + intros X. assert (m = 0%Z) by lia. assert (n = 0%Z) by lia. subst. intros y [<-|Y]; [reflexivity|]. apply Z0; auto.
    + intros X. assert (Some n = Some 0%Z) by (apply X; left; reflexivity). assert (m = 0%Z) by (apply Z0; intros y Y; apply X; right; exact Y). injection H0 as ->. lia.
Qed.
Lemma add_config_spec : forall e, entry_fields e -> exists n, add_config e = Some n /\ (0 <= n)%Z /\ (n = 0%Z <-> as_expected e).
Proof.
  intros [w er [p| |]] (F1 & F2 & F3); cbn [e_parsed e_error e_warnings] in *; unfold add_config, as_expected; cbn [e_parsed e_error e_warnings]; [| |congruence].
  - eexists. split; [reflexivity|]. unfold mismatch. destruct w as [w|].
    + destruct (Z.eqb_spec p w) as [->|N]; destruct er as [er|]; try (destruct (F3 er eq_refl) as [-> | ->]); cbn; split; try lia; split; try lia; try (intros _; split; [intros n X; injection X as ->; reflexivity|discriminate]); intros [X Y]; try congruence; exfalso; apply N; symmetry; apply X; reflexivity.
    + destruct er as [er|]; try (destruct (F3 er eq_refl) as [-> | ->]); cbn; split; try lia; split; try lia; try (intros _; split; [discriminate|discriminate]); intros [X Y]; congruence.
  - destruct er as [er|]; [|exfalso; apply F2; reflexivity]. eexists. split; [reflexivity|]. unfold mismatch. destruct (F3 er eq_refl) as [-> | ->]; cbn; split; try lia; split; try lia; congruence.
Qed.
Lemma query_entry_spec : forall q r e n, single_key q r e n ->
  exists m, run_query_entry q = Some m /\ (0 <= m)%Z /\ (m = 0%Z <-> query_as_expected q r e n).
Proof.
  intros q r e n H. unfold run_query_entry, query_as_expected. rewrite H. cbn [run_keys]. eexists. split; [reflexivity|]. unfold mismatch.
  assert (A : (0 <= match q_expected q with Some x => if (r =? x)%Z then 0 else 1 | None => 0 end)%Z /\
              (match q_expected q with Some x => if (r =? x)%Z then 0 else 1 | None => 0 end = 0 <-> forall x, q_expected q = Some x -> r = x)%Z).
  { destruct (q_expected q) as [x|]; [|split; [lia|split; [discriminate|reflexivity]]]. destruct (Z.eqb_spec r x) as [->|N].
    - split; [lia|]. split; [intros _ y Y; injection Y as ->; reflexivity|reflexivity].
    - split; [lia|]. split; [discriminate|]. intros X. exfalso. apply N. apply X. reflexivity. }
  assert (B : ((n =? match q_expected_skip q with Some x => x | None => 0 end) = true <-> match q_expected_skip q with Some x => n = x | None => n = 0 end)%Z).
  { destruct (q_expected_skip q); apply Z.eqb_eq. }
  assert (C : ((e =? 0) = true <-> e = 0)%Z) by apply Z.eqb_eq.
  destruct A as [A1 A2]. rewrite <- A2, <- B, <- C. clear A2 B C.
  destruct (n =? _)%Z, (e =? 0)%Z; split; try lia; split; try lia; intuition (try discriminate; lia).
Qed.
(** A run that does not raise an exception returns 0 exactly if everything was as expected. *)
Theorem C35_scheme : forall html configs queries (rs : list (Z * Z * Z)),
  (List.length (filter (fun b => b) html) = 0 \/ exists l, html = true :: l /\ List.length (filter (fun b => b) l) = 0) ->
  (forall e, In e configs -> entry_fields e) ->
  Forall2 (fun q r => single_key q (fst (fst r)) (snd (fst r)) (snd r)) queries rs ->
  exists n, run_scheme html configs queries = Some (Some n) /\ (0 <= n)%Z /\
    (n = 0%Z <-> (forall e, In e configs -> as_expected e) /\
                 Forall2 (fun q r => query_as_expected q (fst (fst r)) (snd (fst r)) (snd r)) queries rs).
Proof.
  intros html configs queries rs Hh Hc Hq. unfold run_scheme.
  assert (AC : activate html = true).
  { unfold activate. destruct Hh as [->|(l & -> & E)]; [reflexivity|]. cbn [filter List.length]. rewrite E. reflexivity. }
  rewrite AC. cbn [negb].
  destruct (total_sum (map add_config configs) 0) as (n & -> & N & Z1).
  { intros x X. apply in_map_iff in X as (e & <- & X). destruct (add_config_spec e (Hc e X)) as (m & E & M & _). eauto. }
  destruct (total_sum (map run_query_entry queries) (0 + n)%Z) as (m & -> & M & Z2).
  { intros x X. apply in_map_iff in X as (q & <- & X). clear - X Hq. induction Hq as [|q' r qs rs Hr F IH]; [destruct X|].
    destruct X as [->|X]; [|auto]. destruct (query_entry_spec _ _ _ _ Hr) as (m & E & M & _). eauto. }
  eexists. split; [reflexivity|]. split; [lia|].
  assert (Y1 : n = 0%Z <-> forall e, In e configs -> as_expected e).
  { rewrite Z1. split.
    - intros H e X. destruct (add_config_spec e (Hc e X)) as (k & E & _ & K). apply K. assert (Y : add_config e = Some 0%Z) by (apply H; apply in_map; exact X). congruence.
    - intros H x X. apply in_map_iff in X as (e & <- & X). destruct (add_config_spec e (Hc e X)) as (k & E & _ & K). rewrite E. f_equal. apply K. auto. }
  assert (Y2 : m = 0%Z <-> Forall2 (fun q r => query_as_expected q (fst (fst r)) (snd (fst r)) (snd r)) queries rs).
  { rewrite Z2. clear - Hq. induction Hq as [|q r qs rs Hr F IH]; [split; [constructor|intros _ x []]|].
    destruct (query_entry_spec _ _ _ _ Hr) as (k & E & _ & K). split.
    - intros H. constructor.
      + apply K. assert (Y : run_query_entry q = Some 0%Z) by (apply H; left; reflexivity). congruence.
      + apply IH. intros x X. apply H. right. exact X.
    - intros H. inversion_clear H as [|? ? ? ? P Q]. intros x [<-|X]; [rewrite E; f_equal; apply K; exact P|]. apply IH; assumption. }
  rewrite <- Y1, <- Y2. lia.
Qed.
Lemma some_inj : forall a b : Z, Some a = Some b -> a = b.
Proof. intros a b H. congruence. Qed.
Lemma mismatch_bit : forall e f, (0 <= mismatch e f <= 1)%Z.
Proof. intros [n|] f; unfold mismatch; [destruct (f =? n)%Z|]; lia. Qed.
(** The number counts the mismatches, one for each of: warnings or error of a configuration, result, number of skipped
    executions or output of a query. *)
Theorem C35_scheme_counts : forall configs queries n,
  run_scheme [] configs queries = Some (Some n) ->
  exists cs qs, map add_config configs = map Some cs /\ map run_query_entry queries = map Some qs /\ n = (zsum cs + zsum qs)%Z /\
    (forall c, In c cs -> 0 <= c <= 2)%Z /\ (forall q, In q qs -> 0 <= q <= 3)%Z.
Proof.
  intros configs queries n H. unfold run_scheme in H. change (negb (activate [])) with false in H. cbv iota in H.
  assert (T : forall l acc m, total l acc = Some m -> exists zs, l = map Some zs /\ m = (acc + zsum zs)%Z).
  { induction l as [|[x|] l IH]; intros acc m X; cbn [total] in X; try discriminate.
    - injection X as <-. exists []. cbn. split; [reflexivity|lia].
    - destruct (IH _ _ X) as (zs & -> & ->). exists (x :: zs). cbn [map zsum fold_right]. split; [reflexivity|]. unfold zsum. lia. }
  destruct (total (map add_config configs) 0) as [k|] eqn:E1; [|discriminate].
  destruct (total (map run_query_entry queries) k) as [m|] eqn:E2; [|discriminate]. injection H as <-.
  destruct (T _ _ _ E1) as (cs & C & ->). destruct (T _ _ _ E2) as (qs & Q & ->). exists cs, qs. repeat split; auto; try lia.
  - assert (X : In (Some c) (map add_config configs)) by (rewrite C; apply in_map; exact H). apply in_map_iff in X as (e & X & _). clear - X.
    unfold add_config in X. pose proof (mismatch_bit (e_error e) 0). pose proof (mismatch_bit (e_error e) 1).
    destruct (e_parsed e) as [w| |]; [pose proof (mismatch_bit (e_warnings e) w)|destruct (e_error e)|]; try discriminate; apply some_inj in X; subst; lia.
  - assert (X : In (Some c) (map add_config configs)) by (rewrite C; apply in_map; exact H). apply in_map_iff in X as (e & X & _). clear - X.
    unfold add_config in X. pose proof (mismatch_bit (e_error e) 0). pose proof (mismatch_bit (e_error e) 1).
    destruct (e_parsed e) as [w| |]; [pose proof (mismatch_bit (e_warnings e) w)|destruct (e_error e)|]; try discriminate; apply some_inj in X; subst; lia.
  - assert (X : In (Some q) (map run_query_entry queries)) by (rewrite Q; apply in_map; exact H). apply in_map_iff in X as (e & X & _). clear - X.
    unfold run_query_entry in X. destruct (run_keys (q_runs e) _) as [[[a b] c]|]; [|discriminate]. apply some_inj in X. subst.
    pose proof (mismatch_bit (q_expected e) a). destruct (c =? _)%Z, (b =? 0)%Z; lia.
  - assert (X : In (Some q) (map run_query_entry queries)) by (rewrite Q; apply in_map; exact H). apply in_map_iff in X as (e & X & _). clear - X.
    unfold run_query_entry in X. destruct (run_keys (q_runs e) _) as [[[a b] c]|]; [|discriminate]. apply some_inj in X. subst.
    pose proof (mismatch_bit (q_expected e) a). destruct (c =? _)%Z, (b =? 0)%Z; lia.
Qed.
(** docs/SchemeFileFormat.md: "expected" is the expected sum of the results of all sub-queries of a query.  The model (as
    the code) looks at the last one only: results, failed comparisons and skipped executions of the others are lost. *)
Theorem C35_sub_queries_refuted : exists q r1 e1 n1 r2 e2 n2, q_runs q = [Triple r1 e1 n1; Triple r2 e2 n2] /\
  q_expected q = Some r2 /\ (r1 + r2 <> r2)%Z /\ e1 = 1%Z /\ n1 = 1%Z /\ run_query_entry q = Some 0%Z.
Proof. exists (Query [Triple 1 1 1; Triple 0 0 0] (Some 0%Z) None), 1%Z, 1%Z, 1%Z, 0%Z, 0%Z, 0%Z. repeat split; discriminate. Qed.
(** The status of the process is the number of mismatches modulo 256: a run with 256 mismatches looks like one without. *)
Definition failing : query_entry := Query [Triple 1 0 0] (Some 0%Z) None.
Theorem C35_status_refuted : exists queries n, run_scheme [] [] queries = Some (Some n) /\ (0 < n)%Z /\
  exit_status (main_value false (run_scheme [] [] queries)) = 0%Z.
Proof. exists (repeat failing 256), 256%Z. repeat split. Qed.
(** As many as seven mismatches look like an exception. *)
Theorem C35_seven_refuted : exists queries, run_scheme [] [] queries = Some (Some 7%Z) /\
  main_value false (run_scheme [] [] queries) = main_value false None.
Proof. exists (repeat failing 7). split; reflexivity. Qed.
(** A scheme whose queries ask for html output is not run at all if there are several of them, or if it is not the first
    that does; the exit status is that of success. *)
Theorem C35_html_refuted : forall configs queries, run_scheme [true; true] configs queries = Some None /\
  run_scheme [false; true] configs queries = Some None /\ exit_status (main_value false (run_scheme [true; true] configs queries)) = 0%Z.
Proof. intros. repeat split. Qed.
Example scheme_case :
  run_scheme [true; false] [Entry (Some 2%Z) None (Parsed 2); Entry None (Some 1%Z) SyntaxErr; Entry (Some 1%Z) (Some 1%Z) (Parsed 0)]
    [Query [Triple 3 0 0] (Some 3%Z) None; Query [Triple 3 1 2] (Some 4%Z) (Some 1%Z); Query [Triple 5 0 1] None (Some 1%Z)] = Some (Some 5%Z).
Proof. reflexivity. Qed.
Print Assumptions C35_file_comparison.
Print Assumptions C35_not_evaluated.
