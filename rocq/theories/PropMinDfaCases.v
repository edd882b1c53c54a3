(** * C73, C74: concrete cases, and where the properties fail.

    The library of the cases: eight classes of words, an automaton is the set of classes that it accepts. *)
From Coq Require Import List Bool Arith Lia String Ascii.
From Verif Require Import TextModel IstioValueModel MinDfaModel MinDfaFacts MinDfaText PropMinDfa.
Import ListNotations.
Local Open Scope string_scope.
Local Open Scope list_scope.
Local Open Scope nat_scope.

(** ** A library *)
Definition chars_of (x : string) : list ascii := list_ascii_of_string x.
(** 0: the empty word; 1: "/a"; 2: a slash first and "foo" last; 3: a slash first, else; 4: "foo" last; 5: "a"; 6: other words of the alphabet; 7: other characters. *)
Definition classl (l : list ascii) : nat :=
  match l with
  | [] => 0
  | c :: _ =>
    if negb (forallb alphabet l) then 7
    else if String.eqb (string_of_list_ascii l) "a" then 5 else if String.eqb (string_of_list_ascii l) "/a" then 1
    else if Ascii.eqb c "/" then (if ends_with (chars_of "foo") l then 2 else 3)
    else if ends_with (chars_of "foo") l then 4 else 6
  end.
Definition class (x : string) : nat := classl (chars_of x).
Definition bit (f : list bool) (i : nat) : bool := nth i f false.
Definition bits (p : nat -> bool) : list bool := map p (seq 0 8).
Definition only (l : list nat) : list bool := bits (fun i => existsb (Nat.eqb i) l).
(** Words of the classes with infinitely many. *)
Definition sample (k n : nat) : string :=
  let x := repeat ("x"%char) n in
  string_of_list_ascii
    (match k with 2 => chars_of "/" ++ x ++ chars_of "foo" | 3 => chars_of "/" ++ x ++ chars_of "b" | 4 => x ++ chars_of "foo" | 6 => x ++ chars_of "b" | _ => x ++ chars_of " " end).
Definition endless : list nat := [2; 3; 4; 6; 7].
Definition few (f : list bool) : list string := (if bit f 0 then [""] else []) ++ (if bit f 5 then ["a"] else []) ++ (if bit f 1 then ["/a"] else []).
Definition examples (f : list bool) : list string := few f ++ map (fun k => sample k 0) (filter (bit f) endless).
Definition the_parser (s : string) : option (list bool) :=
  if String.eqb s "" then Some (only [0])
  else if String.eqb s "a" then Some (only [5])
  else if String.eqb s "/a" then Some (only [1])
  else if String.eqb s "[.\w/\-]*" then Some (only [0; 1; 2; 3; 4; 5; 6])
  else if String.eqb s "/[.\w/\-]*" then Some (only [1; 2; 3])
  else if String.eqb s "[.\w/\-]+" then Some (only [1; 2; 3; 4; 5; 6])
  else if String.eqb s "[.\w/\-]*foo" then Some (only [2; 4])
  else if String.eqb s "/[.\w/\-]*foo" then Some (only [2])
  else None.
Definition lib : fsm_lib := mklib (list bool)
  (fun f x => bit f (class x))
  (fun f g => forallb (fun i => Bool.eqb (bit f i) (bit g i)) (seq 0 8))
  (fun f g => bits (fun i => bit f i || bit g i))
  (fun f g => bits (fun i => bit f i && bit g i))
  (fun f g => bits (fun i => bit f i && negb (bit g i)))
  (fun f g => forallb (fun i => negb (bit f i) || bit g i) (seq 0 8))
  (fun f => forallb (fun i => negb (bit f i)) (seq 0 8))
  (fun f => if existsb (bit f) endless then None else Some (List.length (few f)))
  (fun f i => nth_error (examples f) i)
  the_parser.

Lemma class_lt : forall x, class x < 8.
Proof.
  intros x. unfold class, classl. destruct (chars_of x); [lia|]. destruct (negb _); [lia|]. destruct (String.eqb _ "a"); [lia|]. destruct (String.eqb _ "/a"); [lia|].
  destruct (Ascii.eqb a "/"); destruct (ends_with _ _); lia.
Qed.
Lemma bit_bits : forall p i, i < 8 -> bit (bits p) i = p i.
Proof. intros p i H. do 8 (destruct i as [|i]; [reflexivity|]). lia. Qed.
Lemma eight : forall (p : nat -> bool), forallb p (seq 0 8) = true <-> forall i, i < 8 -> p i = true.
Proof. intros p. rewrite forallb_forall. split; intros H i Hi; apply H; [apply in_seq; lia|apply in_seq in Hi; lia]. Qed.
Lemma ends_app : forall p l, ends_with p (l ++ p) = true.
Proof.
  intros p l. unfold ends_with. rewrite rev_app_distr. generalize (rev p) as q, (rev l) as m. induction q as [|c q IH]; intros m; [reflexivity|].
  cbn [starts_with app]. rewrite Ascii.eqb_refl. exact (IH m).
Qed.
Lemma ends_b : forall l, ends_with (chars_of "foo") (l ++ chars_of "b") = false.
Proof. intros l. unfold ends_with. rewrite rev_app_distr. reflexivity. Qed.
Lemma alpha_x : forall n l, forallb alphabet (repeat ("x"%char) n ++ l) = forallb alphabet l.
Proof. induction n as [|n IH]; intros l; [reflexivity|]. cbn [repeat app forallb]. rewrite IH. reflexivity. Qed.
Lemma classl_foo : forall m, classl (("/"%char :: m) ++ chars_of "foo") = if forallb alphabet m then 2 else 7.
Proof.
  intros m. unfold classl. cbn [app]. change ("/"%char :: m ++ chars_of "foo") with (("/"%char :: m) ++ chars_of "foo"). rewrite ends_app, forallb_app. cbn [forallb].
  change (alphabet "/") with true. change (forallb alphabet (chars_of "foo")) with true. rewrite andb_true_r. cbn [andb]. destruct (forallb alphabet m); [|reflexivity]. cbn [negb].
  destruct m as [|c [|d m]]; try reflexivity; cbn [app string_of_list_ascii chars_of list_ascii_of_string String.eqb]; destruct (Ascii.eqb c "a"); reflexivity.
Qed.
Lemma class_sample : forall k n, In k endless -> class (sample k n) = k.
Proof.
  intros k n H. unfold class, sample, chars_of at 1. rewrite list_ascii_of_string_of_list_ascii.
  assert (Fx : forallb alphabet (repeat ("x"%char) n) = true) by (rewrite <- (app_nil_r (repeat _ n)), alpha_x; reflexivity).
  assert (Fa : forall l, forallb alphabet (repeat ("x"%char) n ++ l) = forallb alphabet l) by (intros l; apply alpha_x).
  destruct H as [<-|[<-|[<-|[<-|[<-|[]]]]]].
  - change (chars_of "/" ++ repeat "x"%char n ++ chars_of "foo") with (("/"%char :: repeat "x"%char n) ++ chars_of "foo"). rewrite classl_foo, Fx. reflexivity.
  - unfold classl. change (chars_of "/" ++ repeat "x"%char n ++ chars_of "b") with (("/"%char :: repeat "x"%char n) ++ chars_of "b"). rewrite ends_b. cbn [app forallb]. rewrite Fa.
    destruct n; reflexivity.
  - unfold classl. rewrite ends_app, Fa. destruct n; reflexivity.
  - unfold classl. rewrite ends_b, Fa. destruct n; reflexivity.
  - unfold classl. rewrite Fa. destruct n; reflexivity.
Qed.
Lemma sample_len : forall k n, n < String.length (sample k n).
Proof.
  assert (E : forall l, String.length (string_of_list_ascii l) = List.length l) by (induction l as [|c l IH]; cbn; [reflexivity|rewrite IH; reflexivity]).
  intros k n. unfold sample. rewrite E. do 7 (destruct k as [|k]; [rewrite ?app_length, repeat_length; cbn; lia|]). rewrite ?app_length, repeat_length. cbn. lia.
Qed.
Lemma long : forall l : list string, exists n, forall x, In x l -> String.length x <= n.
Proof.
  induction l as [|y l [n H]]; [exists 0; intros x []|]. exists (n + String.length y). intros x [<-|Hx]; [lia|]. specialize (H x Hx). lia.
Qed.
(** Every class has words, the endless ones infinitely many. *)
Lemma endless_many : forall k, In k endless -> forall l, exists x, class x = k /\ ~ In x l.
Proof.
  intros k H l. destruct (long l) as (n & Hn). exists (sample k n). split; [exact (class_sample k n H)|]. intros Hin. pose proof (Hn _ Hin). pose proof (sample_len k n). lia.
Qed.
Lemma class_some : forall k, k < 8 -> exists x, class x = k.
Proof.
  intros k H. assert (Hk : In k endless \/ k = 0 \/ k = 1 \/ k = 5) by (do 8 (destruct k as [|k]; [cbn; tauto|]); lia).
  destruct Hk as [Hk|[-> |[-> | ->]]]; [destruct (endless_many k Hk []) as (x & E & _); exists x; exact E|exists ""; reflexivity|exists "/a"; reflexivity|exists "a"; reflexivity].
Qed.
Lemma class_few : forall x, class x = 0 /\ x = "" \/ class x = 1 /\ x = "/a" \/ class x = 5 /\ x = "a" \/ In (class x) endless.
Proof.
  intros x. unfold class. pose proof (string_of_list_ascii_of_string x) as E. fold (chars_of x) in E. destruct (chars_of x) as [|c l]; [left; split; [reflexivity|symmetry; exact E]|].
  unfold classl. destruct (negb _); [right; right; right; cbn; tauto|]. rewrite E. destruct (String.eqb x "a") eqn:E1.
  { apply String.eqb_eq in E1. right. right. left. split; [reflexivity|exact E1]. }
  destruct (String.eqb x "/a") eqn:E2; [apply String.eqb_eq in E2; right; left; split; [reflexivity|exact E2]|].
  right. right. right. destruct (Ascii.eqb c "/"); destruct (ends_with _ _); cbn; tauto.
Qed.
Lemma in_if : forall (b : bool) (x y : string), In x (if b then [y] else []) <-> b = true /\ y = x.
Proof. intros [] x y; cbn; split; intros H; try tauto; try (destruct H as [H _]; discriminate H). Qed.
Lemma few_in : forall f x, In x (few f) <-> (bit f 0 = true /\ "" = x) \/ (bit f 5 = true /\ "a" = x) \/ (bit f 1 = true /\ "/a" = x).
Proof. intros f x. unfold few. rewrite !in_app_iff, !in_if. reflexivity. Qed.
Lemma lib_lawful : lawful lib.
Proof.
  split.
  - intros f g H x. cbn [same lib] in H. rewrite eight in H. apply eqb_prop. exact (H (class x) (class_lt x)).
  - intros f g x. exact (bit_bits (fun i => bit f i || bit g i) (class x) (class_lt x)).
  - intros f g x. exact (bit_bits (fun i => bit f i && bit g i) (class x) (class_lt x)).
  - intros f g x. exact (bit_bits (fun i => bit f i && negb (bit g i)) (class x) (class_lt x)).
  - intros f g. cbn [is_subset lib accepts]. rewrite eight. split.
    + intros H x Hx. specialize (H (class x) (class_lt x)). rewrite Hx in H. exact H.
    + intros H i Hi. destruct (class_some i Hi) as (x & <-). specialize (H x). destruct (bit f (class x)); [rewrite (H eq_refl); reflexivity|reflexivity].
  - intros f. cbn [is_empty lib accepts]. rewrite eight. split.
    + intros H x. apply negb_true_iff. exact (H (class x) (class_lt x)).
    + intros H i Hi. destruct (class_some i Hi) as (x & <-). rewrite (H x). reflexivity.
  - intros f n H. cbn [size lib] in H. destruct (existsb (bit f) endless) eqn:E; [discriminate|]. injection H as <-.
    assert (N : forall k, In k endless -> bit f k = false).
    { intros k Hk. destruct (bit f k) eqn:B; [|reflexivity]. assert (T : existsb (bit f) endless = true) by (apply existsb_exists; exists k; split; [exact Hk|exact B]). rewrite T in E. discriminate. }
    exists (few f). split; [reflexivity|]. split; [|split].
    + unfold few. destruct (bit f 0), (bit f 5), (bit f 1); cbn; repeat constructor; cbn; intros K; repeat (destruct K as [K|K]); try discriminate K; try destruct K.
    + intros i _. cbn [nth_string lib]. unfold examples. assert (Fl : filter (bit f) endless = []).
      { unfold endless. cbn [filter]. rewrite !N by (cbn; tauto). reflexivity. }
      rewrite Fl. cbn [map]. rewrite app_nil_r. reflexivity.
    + intros x. rewrite few_in. cbn [accepts lib]. split.
      * intros H. destruct (class_few x) as [[C ->]|[[C ->]|[[C ->]|C]]].
        -- left. split; [exact H|reflexivity].
        -- right. right. split; [exact H|reflexivity].
        -- right. left. split; [exact H|reflexivity].
        -- rewrite (N _ C) in H. discriminate.
      * intros [[H <-]|[[H <-]|[H <-]]]; exact H.
  - intros f H l. cbn [size lib] in H. destruct (existsb (bit f) endless) eqn:E; [|discriminate]. apply existsb_exists in E. destruct E as (k & Hk & B).
    destruct (endless_many k Hk l) as (x & C & Nx). exists x. split; [cbn [accepts lib]; rewrite C; exact B|exact Nx].
  - intros f H. cbn [nth_string lib accepts is_empty] in *. unfold examples.
    assert (Ex : examples f <> [] -> exists x, nth_error (examples f) 0 = Some x /\ bit f (class x) = true).
    { intros Ne. destruct (examples f) as [|x l] eqn:Ef; [contradiction Ne; reflexivity|]. exists x. split; [reflexivity|].
      assert (Hin : In x (examples f)) by (rewrite Ef; left; reflexivity). unfold examples in Hin. apply in_app_or in Hin. destruct Hin as [Hin|Hin].
      - apply few_in in Hin. destruct Hin as [[B <-]|[[B <-]|[B <-]]]; exact B.
      - apply in_map_iff in Hin. destruct Hin as (k & <- & Hk). apply filter_In in Hk. rewrite (class_sample k 0 (proj1 Hk)). exact (proj2 Hk). }
    apply Ex. intros En. assert (T : forallb (fun i => negb (bit f i)) (seq 0 8) = true); [|rewrite T in H; discriminate].
    apply eight. intros i Hi. apply negb_true_iff. destruct (bit f i) eqn:B; [exfalso|reflexivity]. unfold examples in En. apply app_eq_nil in En. destruct En as [E1 E2].
    assert (Hk : In i endless \/ i = 0 \/ i = 1 \/ i = 5) by (clear - Hi; do 8 (destruct i as [|i]; [cbn; tauto|]); lia).
    destruct Hk as [Hk|Hk].
    + assert (Hf : In (sample i 0) (map (fun k => sample k 0) (filter (bit f) endless))) by (apply in_map_iff; exists i; split; [reflexivity|apply filter_In; split; [exact Hk|exact B]]).
      rewrite E2 in Hf. destruct Hf.
    + assert (Hf : exists x, In x (few f)); [|rewrite E1 in Hf; destruct Hf as (x & [])]. destruct Hk as [-> |[-> | ->]].
      * exists "". apply few_in. left. split; [exact B|reflexivity].
      * exists "/a". apply few_in. right. right. split; [exact B|reflexivity].
      * exists "a". apply few_in. right. left. split; [exact B|reflexivity].
Qed.

(** ** The dimension of paths and the dimension of hosts *)
Definition path_re : string := "/[.\w/\-]*".
Definition host_re : string := "[.\w/\-]*".
Definition is_path (x : string) : Prop := bit (only [1; 2; 3]) (class x) = true.
Definition is_host (x : string) : Prop := bit (only [0; 1; 2; 3; 4; 5; 6]) (class x) = true.
Lemma paths_dimension : dimension lib is_path path_re.
Proof.
  split; [exact lib_lawful| |reflexivity|].
  - intros f H x. injection H as <-. reflexivity.
  - intros l. destruct (endless_many 3 ltac:(cbn; tauto) l) as (x & C & N). exists x. split; [unfold is_path; rewrite C; reflexivity|exact N].
Qed.
Lemma hosts_dimension : dimension lib is_host host_re.
Proof.
  split; [exact lib_lawful| |reflexivity|].
  - intros f H x. injection H as <-. reflexivity.
  - intros l. destruct (endless_many 6 ltac:(cbn; tauto) l) as (x & C & N). exists x. split; [unfold is_host; rewrite C; reflexivity|exact N].
Qed.
Lemma set_canonical : forall D, canonical_domain lib D.
Proof.
  intros D f g Hf Hg. cbn [same lib]. apply eight. intros i Hi. destruct (class_some i Hi) as (x & <-). apply eqb_true_iff. apply eq_true_iff_eq.
  exact (iff_trans (Hf x) (iff_sym (Hg x))).
Qed.
Lemma host_alphabet : forall x, is_host x -> chars alphabet x = true.
Proof.
  assert (E : forall x, chars alphabet x = forallb alphabet (chars_of x)) by (induction x as [|c x IH]; cbn; [reflexivity|unfold chars_of in IH; rewrite IH; reflexivity]).
  intros x H. rewrite E. unfold is_host, class, classl in H. destruct (chars_of x) as [|c l]; [reflexivity|].
  destruct (forallb alphabet (c :: l)); [reflexivity|]. cbn [negb] in H. discriminate H.
Qed.
Lemma path_alphabet : forall x, is_path x -> chars alphabet x = true.
Proof.
  intros x H. apply host_alphabet. unfold is_path, is_host in *. pose proof (class_lt x) as Hl. revert H. generalize (class x) Hl. clear Hl. intros k Hk.
  do 8 (destruct k as [|k]; [intros H; try discriminate H; reflexivity|]). lia.
Qed.

(** A check that the expressions of a list are readable. *)
Definition shown (s : string) : string := py_replace default_regex "*" s.
Definition one_ok (d : list bool) (s : string) : bool :=
  bal 0 (shown s) && negb (opens (shown s)) &&
  match the_parser s with
  | Some f => (negb (existsb (bit f) endless) || negb (chars plainc (shown s))) && (negb (String.eqb (shown s) "*") || same lib f d)
  | None => true
  end.
Definition two_ok (s t : string) : bool :=
  negb (String.eqb (shown s) (shown t)) || match the_parser s, the_parser t with Some f, Some g => same lib f g | _, _ => true end.
Lemma check_readable : forall D dre d l, the_parser dre = Some d -> (forall x, bit d (class x) = true <-> D x) -> forallb (one_ok d) (dre :: l) = true ->
  forallb (fun s => forallb (two_ok s) (dre :: l)) (dre :: l) = true -> readable lib D dre (fun s => In s l).
Proof.
  intros D dre d l Hd HD H1 H2. rewrite forallb_forall in H1. rewrite forallb_forall in H2.
  assert (M : forall s, In s l \/ s = dre -> In s (dre :: l)) by (intros s [H| ->]; [right; exact H|left; reflexivity]).
  assert (O : forall s, In s l \/ s = dre -> one_ok d s = true) by (intros s H; exact (H1 s (M s H))).
  split.
  - intros s H. specialize (O s H). unfold one_ok in O. apply andb_true_iff in O. destruct O as [O _]. apply andb_true_iff in O. rewrite negb_true_iff in O. exact O.
  - intros s t f g Hs Ht Ps Pt E x. specialize (H2 s (M s Hs)). rewrite forallb_forall in H2. specialize (H2 t (M t Ht)). unfold two_ok in H2. cbn [parse lib] in Ps, Pt.
    rewrite Ps, Pt in H2. fold (shown s) in E. fold (shown t) in E. rewrite E, String.eqb_refl in H2. exact (same_ok lib lib_lawful f g H2 x).
  - intros s f Hs Ps E x. specialize (O s Hs). unfold one_ok in O. cbn [parse lib] in Ps. rewrite Ps in O. fold (shown s) in E. rewrite E in O. rewrite String.eqb_refl in O.
    apply andb_true_iff in O. destruct O as [_ O]. apply andb_true_iff in O. destruct O as [_ O]. cbn [negb orb] in O. cbn [accepts lib].
    pose proof (same_ok lib lib_lawful f d O x) as Q. cbn [accepts lib] in Q. rewrite Q. apply HD.
  - intros s f Hs Ps Inf. specialize (O s Hs). unfold one_ok in O. cbn [parse lib] in Ps. rewrite Ps in O. apply andb_true_iff in O. destruct O as [_ O]. apply andb_true_iff in O. destruct O as [O _].
    fold (shown s). apply orb_true_iff in O. rewrite !negb_true_iff in O. destruct O as [O|O]; [|exact O]. exfalso.
    assert (Sz : size lib f = Some (List.length (few f))) by (cbn [size lib]; rewrite O; reflexivity).
    destruct (size_some lib lib_lawful f _ Sz) as (ws & _ & _ & _ & W). destruct (Inf ws) as (x & Ax & Nx). apply Nx. apply W. exact Ax.
Qed.

(** Histories that keep to the calls of a dimension. *)
Definition made_b (w : world lib) (a : nat) : bool := match get lib w a with Some _ => true | None => false end.
Definition call_okb (dre : string) (l : list string) (w : world lib) (c : call) : bool :=
  match c with
  | CRegex s => existsb (String.eqb s) l
  | CAll s | CPath s => String.eqb s dre
  | COr a b | CAnd a b | CSub a b => made_b w a && made_b w b
  | CStr a | CRep a => made_b w a
  | CValues d a => made_b w a && match get lib w d with Some x => is_true (o_all lib x) | None => false end
  end.
Fixpoint run (dre : string) (l : list string) (w : world lib) (h : list call) : option (world lib) :=
  match h with
  | [] => Some w
  | c :: t => if call_okb dre l w c then match step lib w c with Some v => run dre l v t | None => None end else None
  end.
Lemma made_b_ok : forall w a, made_b w a = true -> get lib w a <> None.
Proof. intros w a H. unfold made_b in H. destruct (get lib w a); [discriminate|discriminate H]. Qed.
Lemma call_okb_ok : forall dre l w c, call_okb dre l w c = true -> call_ok lib dre (fun s => In s l) w c.
Proof.
  intros dre l w c H. destruct c; cbn [call_okb call_ok] in *.
  - apply existsb_exists in H. destruct H as (x & Hx & E). apply String.eqb_eq in E. subst x. exact Hx.
  - apply String.eqb_eq. exact H.
  - apply String.eqb_eq. exact H.
  - apply andb_true_iff in H. split; apply made_b_ok; apply H.
  - apply andb_true_iff in H. split; apply made_b_ok; apply H.
  - apply andb_true_iff in H. split; apply made_b_ok; apply H.
  - exact (made_b_ok w a H).
  - exact (made_b_ok w a H).
  - apply andb_true_iff in H. split; [exact (made_b_ok w a (proj1 H))|]. destruct H as [_ H]. destruct (get lib w d) as [x|]; [|discriminate]. exists x. split; [reflexivity|].
    exact (is_true_eq _ H).
Qed.
Lemma run_reached : forall dre l h w w', reached lib dre (fun s => In s l) w -> run dre l w h = Some w' -> reached lib dre (fun s => In s l) w'.
Proof.
  intros dre l h. induction h as [|c h IH]; intros w w' R H; cbn [run] in H; [injection H as <-; exact R|].
  destruct (call_okb dre l w c) eqn:K; [|discriminate]. destruct (step lib w c) as [v|] eqn:S; [|discriminate].
  apply (IH v w'); [|exact H]. exact (reached_step lib dre _ w c v R (call_okb_ok dre l w c K) S).
Qed.
Definition result (o : option (world lib)) : world lib := match o with Some w => w | None => start lib end.

Lemma made_by : forall w a, made_b w a = true -> made lib w a.
Proof. exact made_b_ok. Qed.
Definition domain_b (w : world lib) (d : nat) : bool := match get lib w d with Some x => is_true (o_all lib x) | None => false end.
Lemma domain_by : forall w d, domain_b w d = true -> domain lib w d.
Proof. intros w d H. unfold domain_b in H. destruct (get lib w d) as [x|] eqn:E; [|discriminate]. exists x. split; [exact E|exact (is_true_eq _ H)]. Qed.
Definition words_b (w : world lib) (a : nat) (x : string) : bool := match get lib w a with Some o => accepts lib (o_fsm lib o) x | None => false end.
Lemma words_by : forall w a x, words lib w a x <-> words_b w a x = true.
Proof.
  intros w a x. unfold words_b, words. destruct (get lib w a) as [o|]; split.
  - intros (o' & E & A). injection E as <-. exact A.
  - intros A. exists o. split; [reflexivity|exact A].
  - intros (o' & E & _). discriminate E.
  - discriminate.
Qed.
Lemma not_words_by : forall w a x, words_b w a x = false -> ~ words lib w a x.
Proof. intros w a x H K. apply words_by in K. rewrite H in K. discriminate. Qed.
(** The classes of words of an object. *)
Definition classes (w : world lib) (a : nat) : list bool := match get lib w a with Some o => o_fsm lib o | None => [] end.
Lemma words_class : forall w a f x, classes w a = f -> (words lib w a x <-> bit f (class x) = true).
Proof.
  intros w a f x <-. rewrite words_by. unfold words_b, classes. destruct (get lib w a) as [o|]; [reflexivity|]. split; [discriminate|].
  intros H. pose proof (class_lt x). destruct (class x); discriminate H.
Qed.
Lemma bits_incl : forall f g, forallb (fun i => negb (bit f i) || bit g i) (seq 0 8) = true -> forall x, bit f (class x) = true -> bit g (class x) = true.
Proof. intros f g H x Hx. rewrite eight in H. specialize (H (class x) (class_lt x)). rewrite Hx in H. exact H. Qed.

Definition ends {A} (o : option A) : bool := match o with Some _ => true | None => false end.
Lemma result_by : forall o : option (world lib), ends o = true -> o = Some (result o).
Proof. intros [w|] H; [reflexivity|discriminate]. Qed.

(** ** Paths: the values "/a" and "/*foo" *)
Definition path_values : list string := ["/a"; "/[.\w/\-]*foo"].
(** 0: the domain; 1: "/a"; 2: "/*foo"; 3: all but 1; 4: 1 or 2; 5: all but 4; 6: 3 and 5; 7: 2 without 1. *)
Definition path_calls : list call :=
  [CPath path_re; CRegex "/a"; CRegex "/[.\w/\-]*foo"; CSub 0 1; COr 1 2; CSub 0 4; CAnd 3 5; CSub 2 1; CRegex "/a"; COr 1 2; CValues 0 5].
Definition path_world : world lib := result (run path_re path_values (start lib) path_calls).
Lemma path_reached : reached lib path_re (fun s => In s path_values) path_world.
Proof. apply (run_reached path_re path_values path_calls (start lib)); [constructor|]. apply result_by. vm_compute. reflexivity. Qed.
Lemma path_inside : inside lib is_path (fun s => In s path_values).
Proof.
  intros s f [<-|[<-|[]]] P; injection P as <-.
  - split; [intros x; apply (bits_incl (only [1]) (only [1; 2; 3])); reflexivity|]. intros _. exists "/b". split; reflexivity.
  - split; [intros x; apply (bits_incl (only [2]) (only [1; 2; 3])); reflexivity|discriminate].
Qed.
Lemma path_readable : readable lib is_path path_re (fun s => In s path_values).
Proof. apply (check_readable is_path path_re (only [1; 2; 3])); [reflexivity|intros x; reflexivity|vm_compute; reflexivity|vm_compute; reflexivity]. Qed.
(** The texts of the objects 0 to 7; 6 has the words of 5, whose text was asked for before, so that the cache of __str__ gives the text of 5. *)
Definition texts (w : world lib) (d : nat) : list (option string) := map (fun a => option_map snd (values_str lib w d a)) (seq 0 (List.length (heap lib w))).
Example path_texts : texts path_world 0 =
  [Some "*"; Some "/a"; Some "/*foo"; Some "all but /a"; Some "(/a)|(/*foo)"; Some "(/*)-((/a)|(/*foo))"; Some "(/*)-((/a)|(/*foo))"; Some "(/*foo)-(/a)"].
Proof. vm_compute. reflexivity. Qed.
(** The theorems apply to this state. *)
Example path_sub : exists w' r, dfa_sub lib path_world 0 4 = Some (w', r) /\ forall x, words lib w' r x <-> words lib path_world 0 x /\ ~ words lib path_world 4 x.
Proof.
  refine (proj2 (proj2 (proj2 (C73_exact lib is_path path_re (fun s => In s path_values) paths_dimension path_inside path_world 0 4 path_reached _ _)))); apply made_by; vm_compute; reflexivity.
Qed.
Example path_answers : map (fun p => contained lib path_world (fst p) (snd p)) [(6, 3); (0, 3); (4, 0)] = [Some true; Some false; Some true] /\
  map (finite_len lib path_world) [1; 3] = [Some true; Some false] /\ map (fun a => is_all lib path_world a 0) [0; 3] = [Some true; Some false] /\
  map (fun a => option_map snd (dfa_rep lib path_world a)) [1; 2; 3] = [Some (Some "/a"); Some (Some "/foo"); Some (Some "/foo")].
Proof. split; [vm_compute; reflexivity|]. split; [vm_compute; reflexivity|]. split; vm_compute; reflexivity. Qed.
Example path_text_6 : exists w' t, values_str lib path_world 0 6 = Some (w', t) /\ tells lib is_path path_re (fun s => In s path_values) t (words lib path_world 6).
Proof.
  assert (M : made lib path_world 6) by (apply made_by; vm_compute; reflexivity). assert (Dm : domain lib path_world 0) by (apply domain_by; vm_compute; reflexivity).
  destruct (C74_text lib is_path path_re (fun s => In s path_values) paths_dimension path_inside path_readable (set_canonical is_path) path_world 0 6 path_reached M Dm) as (w' & t & E & _ & T).
  exists w', t. split; [exact E|exact T].
Qed.

(** ** Where the properties fail *)
Definition after (h : list call) : world lib := result (steps lib (start lib) h).
Definition sub_of (w : world lib) (a b : nat) : world lib * nat := match dfa_sub lib w a b with Some p => p | None => (w, 0) end.
Lemma after_by : forall h, ends (steps lib (start lib) h) = true -> steps lib (start lib) h = Some (after h).
Proof. intros h H. exact (result_by _ H). Qed.
Lemma sub_by : forall w a b, ends (dfa_sub lib w a b) = true -> dfa_sub lib w a b = Some (fst (sub_of w a b), snd (sub_of w a b)).
Proof. intros w a b H. unfold sub_of. destruct (dfa_sub lib w a b) as [[w' r]|]; [reflexivity|discriminate]. Qed.
(** The dimensions of hosts and of paths share the objects of equal expressions (dfa_from_regex has one cache, MinDFA.py:101), and an object has one
    [complement_dfa]: with notPaths "*foo" and notHosts "*foo" the complement within the paths is taken for the complement within the hosts, and the
    host "a" is lost. *)
Definition mixed : list call := [CAll host_re; CPath path_re; CRegex "[.\w/\-]*foo"; CSub 1 2].
Theorem C73_dimensions_refuted : exists w w' r, steps lib (start lib) mixed = Some w /\
  dfa_sub lib w 0 2 = Some (w', r) /\ is_host "a" /\ words lib w 0 "a" /\ ~ words lib w 2 "a" /\ ~ words lib w' r "a".
Proof.
  exists (after mixed), (fst (sub_of (after mixed) 0 2)), (snd (sub_of (after mixed) 0 2)).
  split; [apply after_by; vm_compute; reflexivity|]. split; [apply sub_by; vm_compute; reflexivity|]. split; [vm_compute; reflexivity|].
  split; [apply words_by; vm_compute; reflexivity|]. split; apply not_words_by; vm_compute; reflexivity.
Qed.
(** Also with the value "*" alone (the expression is "[.\w/\-]+"): after it was subtracted from the hosts, subtracting it from the paths leaves the empty word,
    which is not a path; otherwise nothing is left. *)
Definition mixed2 : list call := [CAll host_re; CPath path_re; CRegex "[.\w/\-]+"].
Theorem C73_presence_refuted : exists w w' r v v' q, steps lib (start lib) (mixed2 ++ [CSub 0 2]) = Some w /\ dfa_sub lib w 1 2 = Some (w', r) /\
  ~ words lib w 1 "" /\ words lib w' r "" /\
  steps lib (start lib) mixed2 = Some v /\ dfa_sub lib v 1 2 = Some (v', q) /\ nonempty lib v' q = Some false.
Proof.
  exists (after (mixed2 ++ [CSub 0 2])), (fst (sub_of (after (mixed2 ++ [CSub 0 2])) 1 2)), (snd (sub_of (after (mixed2 ++ [CSub 0 2])) 1 2)),
    (after mixed2), (fst (sub_of (after mixed2) 1 2)), (snd (sub_of (after mixed2) 1 2)).
  split; [apply after_by; vm_compute; reflexivity|]. split; [apply sub_by; vm_compute; reflexivity|]. split; [apply not_words_by; vm_compute; reflexivity|].
  split; [apply words_by; vm_compute; reflexivity|]. split; [apply after_by; vm_compute; reflexivity|]. split; [apply sub_by; vm_compute; reflexivity|vm_compute; reflexivity].
Qed.
(** [inside] is needed for the answers. The path value "*" matches more than the paths; its expression has no star character, so it is taken for "not all words"
    (MinDFA.py:116-117): all paths are not contained in it, although each of them matches. *)
Definition wide : list call := [CPath path_re; CRegex "[.\w/\-]+"].
Theorem C73_star_refuted : exists w, steps lib (start lib) wide = Some w /\ contained lib w 0 1 = Some false /\
  forall x, is_path x -> words lib w 0 x /\ words lib w 1 x.
Proof.
  exists (after wide). split; [apply after_by; vm_compute; reflexivity|]. split; [vm_compute; reflexivity|]. intros x H. split.
  - apply (words_class (after wide) 0 (only [1; 2; 3])); [vm_compute; reflexivity|exact H].
  - apply (words_class (after wide) 1 (only [1; 2; 3; 4; 5; 6])); [vm_compute; reflexivity|]. exact (bits_incl (only [1; 2; 3]) (only [1; 2; 3; 4; 5; 6]) eq_refl x H).
Qed.
(** A value that is no path at all, subtracted from the paths, leaves all of them, but the result is taken for "not all words" (MinDFA.py:269-270). *)
Definition foreign : list call := [CPath path_re; CRegex "a"; CSub 0 1].
Theorem C73_outside_refuted : exists w, steps lib (start lib) foreign = Some w /\ is_all lib w 2 0 = Some false /\
  contained lib w 0 2 = Some false /\ forall x, words lib w 2 x <-> is_path x.
Proof.
  exists (after foreign). split; [apply after_by; vm_compute; reflexivity|]. split; [vm_compute; reflexivity|]. split; [vm_compute; reflexivity|]. intros x.
  apply (words_class (after foreign) 2 (only [1; 2; 3])). vm_compute. reflexivity.
Qed.
(** The exception of C74 occurs: no host and the empty host have the same text. *)
Definition host_values : list string := [""; "a"].
Definition empties : list call := [CAll host_re; CRegex ""; CRegex "a"; CSub 2 2].
Theorem C74_empty_refuted : exists w, reached lib host_re (fun s => In s host_values) w /\ domain lib w 0 /\
  option_map snd (values_str lib w 0 1) = Some "" /\ option_map snd (values_str lib w 0 3) = Some "" /\ words lib w 1 "" /\ (forall x, ~ words lib w 3 x).
Proof.
  exists (result (run host_re host_values (start lib) empties)).
  split; [apply (run_reached host_re host_values empties (start lib)); [constructor|apply result_by; vm_compute; reflexivity]|].
  split; [apply domain_by; vm_compute; reflexivity|]. split; [vm_compute; reflexivity|]. split; [vm_compute; reflexivity|].
  split; [apply words_by; vm_compute; reflexivity|]. intros x H. apply (words_class (result (run host_re host_values (start lib) empties)) 3 (only [])) in H; [|vm_compute; reflexivity].
  revert H. pose proof (class_lt x) as Hl. generalize (class x) Hl. clear. intros k Hk. do 8 (destruct k as [|k]; [discriminate|]). lia.
Qed.
(** The hosts of this state are inside their dimension. *)
Lemma host_inside : inside lib is_host (fun s => In s host_values).
Proof.
  intros s f [<-|[<-|[]]] P; injection P as <-.
  - split; [intros x; apply (bits_incl (only [0]) (only [0; 1; 2; 3; 4; 5; 6])); reflexivity|]. intros _. exists "b". split; reflexivity.
  - split; [intros x; apply (bits_incl (only [5]) (only [0; 1; 2; 3; 4; 5; 6])); reflexivity|]. intros _. exists "b". split; reflexivity.
Qed.
Lemma host_readable : readable lib is_host host_re (fun s => In s host_values).
Proof. apply (check_readable is_host host_re (only [0; 1; 2; 3; 4; 5; 6])); [reflexivity|intros x; reflexivity|vm_compute; reflexivity|vm_compute; reflexivity]. Qed.
Example host_texts : texts (after (empties ++ [CSub 0 2; CSub 0 4])) 0 = [Some "*"; Some ""; Some "a"; Some ""; Some "all but a"].
Proof. vm_compute. reflexivity. Qed.

Print Assumptions C73_operators.
Print Assumptions C73_exact.
Print Assumptions C73_made.
Print Assumptions C73_answers.
Print Assumptions C74_text.
Print Assumptions C74_same_text.
Print Assumptions C73_dimensions_refuted.
Print Assumptions C73_presence_refuted.
Print Assumptions C73_star_refuted.
Print Assumptions C73_outside_refuted.
Print Assumptions C74_empty_refuted.
