(** * What the documents of Istio VirtualServices say: names of gateways, matches and destinations, and the steps of their parser. *)
From Coq Require Import ZArith List Bool Arith Lia String Ascii.
From Verif Require Import IntervalModel IntervalFacts HyperModel HyperFacts HyperOps HyperDims HyperTop HyperInst PropHyperCube ConnModel ConnFacts TextModel PortProtoModel
                          PeerModel PeerFacts PeerSetFacts PolicyModel PolicyLaws PolicyFacts LayerFacts OrderFacts ConnAlg StdDims PropLayers YamlModel ClusterModel ConnDict
                          SelectorFacts CalicoSelectorSets PropSelectors K8sParserModel K8sParserFacts CalicoSelectorModel CalicoParserModel IstioValueModel PropIstioValues IstioRuleFacts IstioParserModel PropIstioParser
                          ServiceModel PropServices SidecarModel SidecarEgressFacts IngressModel IngressWords PropIngressPaths GatewayFacts IngressFacts IngressDocs PropIngress IstioGwModel IstioGwFacts IstioGwDocs.
Import ListNotations.
Local Open Scope string_scope.
Local Open Scope list_scope.
Local Open Scope nat_scope.
Local Opaque min_pod_index max_pod_index min_ipv6_index max_ipv6_index max_ipv4_index v4max v6min v6max.

(** ** Names of gateways *)
(** The gateway that a VirtualService of the namespace [ns] names with the text [s]. *)
Definition gateway_named (ns s n : string) : Prop :=
  s = "mesh" /\ n = "mesh" \/
  s <> "mesh" /\ (unscoped s /\ n = (ns ++ "/" ++ s)%string \/ exists a b, s = (a ++ "/" ++ b)%string /\ unscoped a /\ n = (ns_name a ++ "/" ++ b)%string).
Definition names_say (ns : string) (l : list yaml) (n : string) : Prop := exists s, In (YStr s) l /\ gateway_named ns s n.
Lemma substring_whole : forall s, substring 0 (String.length s) s = s.
Proof. induction s as [|c s IH]; [reflexivity|]. cbn [String.length substring]. rewrite IH. reflexivity. Qed.
Lemma index_slash : forall s, match index 0 "/" s with
  | Some i => s = (substring 0 i s ++ "/" ++ substring (S i) (String.length s - S i) s)%string /\ unscoped (substring 0 i s)
  | None => unscoped s end.
Proof.
  induction s as [|c s IH]; [intros []|]. cbn [index prefix]. destruct (ascii_dec "/" c) as [<-|N].
  - assert (Q : prefix "" s = true) by (destruct s; reflexivity). rewrite Q. cbn [String.length substring]. rewrite Nat.sub_succ, Nat.sub_0_r, substring_whole. split; [destruct s; reflexivity|]. destruct s; intros [].
  - destruct (index 0 "/" s) as [i|].
    + destruct IH as [E U]. cbn [String.length]. rewrite Nat.sub_succ. cbn [substring]. split; [cbn [append]; f_equal; exact E|]. intros [H|H]; [congruence|exact (U H)].
    + intros [H|H]; [congruence|exact (IH H)].
Qed.
Lemma first_slash : forall a a' b b', unscoped a -> unscoped a' -> (a ++ "/" ++ b)%string = (a' ++ "/" ++ b')%string -> a' = a /\ b' = b.
Proof.
  induction a as [|c a IH]; intros [|c' a'] b b' U U' E; cbn [append] in E.
  - injection E as <-. auto.
  - injection E as <- _. destruct U'. left. reflexivity.
  - injection E as -> _. destruct U. left. reflexivity.
  - injection E as <- E. destruct (IH a' b b') as [-> ->]; auto; intros H; [apply U|apply U']; right; exact H.
Qed.
Lemma scoped_has : forall a b, ~ unscoped (a ++ "/" ++ b)%string.
Proof. induction a as [|c a IH]; intros b U; [apply U; left; reflexivity|]. apply (IH b). intros H. apply U. right. exact H. Qed.
Lemma full_gateway_spec : forall ns s n, s <> "mesh" -> (n = full_gateway ns s <-> gateway_named ns s n).
Proof.
  intros ns s n N. unfold full_gateway, gateway_named, slash_name. pose proof (index_slash s) as X. destruct (index 0 "/" s) as [i|].
  - destruct X as [E U]. set (a := substring 0 i s) in *. set (b := substring (S i) _ s) in *. clearbody a b. split.
    + intros ->. right. split; auto. right. exists a, b. auto.
    + intros [[H _]|[_ [[H _]|(a' & b' & E' & U' & ->)]]]; [congruence|rewrite E in H; destruct (scoped_has _ _ H)|]. rewrite E in E'. destruct (first_slash _ _ _ _ U U' E') as [-> ->]. reflexivity.
  - split; [intros ->; right; auto|]. intros [[H _]|[_ [[_ ->]|(a' & b' & -> & _)]]]; [congruence|reflexivity|destruct (scoped_has _ _ X)].
Qed.
Definition gateways_list (m : dict) : list yaml := ylist (yget m "gateways").
Lemma add_mesh_In : forall l n, In n (add_mesh l) <-> In n l \/ n = "mesh".
Proof.
  intros l n. unfold add_mesh. destruct (smem "mesh" l) eqn:E; [apply smem_In in E; split; [auto|intros [H| ->]; auto]|].
  rewrite in_app_iff. cbn [In]. split; intros [H|H]; auto. destruct H as [<-|[]]; auto.
Qed.
Lemma add_mesh_ne : forall l, add_mesh l <> [].
Proof. intros l E. assert (H : In "mesh" (add_mesh l)) by (apply add_mesh_In; auto). rewrite E in H. destruct H. Qed.
Lemma gateway_names_spec : forall ns m global l l', vs_gateway_names ns m global l = Some l' ->
  (forall n, In n l' <-> In n l \/ names_say ns (gateways_list m) n \/ gateways_list m = [] /\ global = true /\ n = "mesh") /\
  (l' = [] <-> l = [] /\ gateways_list m = [] /\ global = false).
Proof.
  intros ns m global l l' E. unfold vs_gateway_names in E. fold (gateways_list m) in E. destruct (gateways_list m) as [|y0 t0] eqn:El.
  - injection E as <-. split.
    + intros n. destruct global; [rewrite add_mesh_In|]; split; try (intros [H|H]); auto; try (right; right; auto); [destruct H as [(s & [] & _)|(_ & _ & ->)]; auto|destruct H as [(s & [] & _)|(_ & H & _)]; discriminate].
    + destruct global; split; try (intros (H1 & H2 & H3); auto; discriminate); [intros H; destruct (add_mesh_ne l H)|auto].
  - rewrite <- El in *. assert (NE : gateways_list m <> []) by (rewrite El; discriminate). rewrite El in E at 1. rewrite <- El in E. clear El y0 t0.
    assert (G : forall t l l', fold_left (fun acc y => bind acc (fun l => add_gateway ns l y)) t (Some l) = Some l' ->
      (forall n, In n l' <-> In n l \/ names_say ns t n) /\ (l' = [] <-> l = [] /\ t = [])).
    { clear. induction t as [|y t IH]; intros l l' E.
      - cbn [fold_left] in E. injection E as <-. split; [intros n; split; [auto|intros [H|(s & [] & _)]; exact H]|tauto].
      - cbn [fold_left bind] in E. destruct (add_gateway ns l y) as [l1|] eqn:E1; [|exfalso; clear - E; induction t; [discriminate|exact (IHt E)]].
        destruct (IH l1 l' E) as [I1 I2]. unfold add_gateway in E1. destruct y as [| | | |s| |]; try discriminate. injection E1 as <-.
        assert (M : forall n, In n (if String.eqb s "mesh" then add_mesh l else l ++ [full_gateway ns s]) <-> In n l \/ gateway_named ns s n).
        { intros n. destruct (String.eqb_spec s "mesh") as [->|N].
          - rewrite add_mesh_In. unfold gateway_named. split; [intros [H| ->]; auto|intros [H|[[_ H]|[H _]]]; [auto|auto|congruence]].
          - rewrite in_app_iff, <- (full_gateway_spec ns s n N). cbn [In]. split; [intros [H|[<-|[]]]; auto|intros [H| ->]; auto]. }
        split.
        + intros n. rewrite I1, M. unfold names_say. cbn [In]. split.
          * intros [[H|H]|(s' & H1 & H2)]; [auto|right; exists s; auto|right; exists s'; auto].
          * intros [H|(s' & [Q|H1] & H2)]; [auto|injection Q as <-; auto|right; exists s'; auto].
        + rewrite I2. split; [intros [H _]|intros [_ H]; discriminate]. exfalso. destruct (String.eqb s "mesh"); [exact (add_mesh_ne l H)|destruct l; discriminate]. }
    destruct (gateways_list m) as [|y t] eqn:El; [congruence|]. rewrite <- El in *. destruct (G _ _ _ E) as [G1 G2]. split.
    + intros n. rewrite G1. split; [intros [H|H]; auto|intros [H|[H|[H _]]]; [auto|auto|congruence]].
    + rewrite G2. split; [intros [_ H]; congruence|intros (_ & H & _); congruence].
Qed.

(** ** Texts to match *)
(** [uri] or [method] of a match, given as a text of one of the kinds exact, prefix and regex. *)
Definition text_given (k : string) (y : yaml) (kind s : string) : Prop :=
  exists m, y = YMap m /\ yget m k = YMap [(kind, YStr s)] /\ In kind ["exact"; "prefix"; "regex"].
Lemma text_given_fn : forall k y a s b t, text_given k y a s -> text_given k y b t -> b = a /\ t = s.
Proof. intros k y a s b t (m & -> & E & _) (m' & Q & E' & _). injection Q as <-. rewrite E in E'. injection E' as <- <-. auto. Qed.
Lemma string_match_spec : forall m k o, string_match m k = Some o ->
  match o with Some (kind, s) => text_given k (YMap m) kind s | None => forall kind s, ~ text_given k (YMap m) kind s end.
Proof.
  intros m k o E. unfold string_match in E.
  assert (N : forall (P : Prop), (forall kind s, yget m k = YMap [(kind, YStr s)] -> In kind ["exact"; "prefix"; "regex"] -> False) -> forall kind s, ~ text_given k (YMap m) kind s).
  { intros P H kind s (m' & Q & H1 & H2). injection Q as <-. exact (H _ _ H1 H2). }
  destruct (yget m k) as [|b|z|z|t|l|mm] eqn:Ek.
  1-6: destruct (ytrue _); [discriminate|]; injection E as <-; apply (N True); intros; discriminate.
  destruct mm as [|[kind v] [|p q]]; try (injection E as <-; apply (N True); intros; discriminate).
  destruct (smem kind ["exact"; "prefix"; "regex"]) eqn:Es.
  - destruct v as [| | | |s| |]; try discriminate. injection E as <-. exists m. split; auto. split; auto. apply smem_In. exact Es.
  - injection E as <-. apply (N True). intros kind' s Q H. injection Q as <- _. apply smem_In in H. congruence.
Qed.
Definition has_text (k : string) (y : yaml) : Prop := exists kind s, text_given k y kind s.

(** *** Paths *)
Definition uri_fits (kind s : string) (w : word) : Prop :=
  kind = "exact" /\ w = text s \/ kind = "prefix" /\ (exists t, w = text s ++ t) \/ kind = "regex" /\ exists e, read_rx (text s) = Some e /\ rx_matches e w.
Definition takes_uri (y : yaml) (w : word) : Prop := forall kind s, text_given "uri" y kind s -> uri_fits kind s w.
(** Where a prefix ends in the path, an element of the path ends. *)
Definition path_fair (ys : list yaml) (w : word) : Prop := domain_word 7 w /\
  forall y s t, In y ys -> text_given "uri" y "prefix" s -> w = text s ++ t -> text s = ["/"%char] \/ t = [] \/ exists u, t = "/"%char :: u.

(** *** Methods *)
Definition method_name (me : Z) (name : string) : Prop := (0 <= me)%Z /\ nth_error all_methods (Z.to_nat me) = Some name.
Definition method_fits (kind s name : string) : Prop := kind = "exact" /\ name = s \/ kind = "prefix" /\ exists t, text name = text s ++ t.
Definition takes_method (y : yaml) (me : Z) : Prop := exists name, method_name me name /\ forall kind s, text_given "method" y kind s -> method_fits kind s name.
Lemma method_range : forall me, (0 <= me <= 8)%Z <-> exists name, method_name me name.
Proof.
  intros me. unfold method_name. split.
  - intros H. destruct (nth_error all_methods (Z.to_nat me)) as [name|] eqn:E; [exists name; split; [lia|auto]|]. apply nth_error_None in E. change (List.length all_methods) with 9 in E. lia.
  - intros (name & H & E). assert (nth_error all_methods (Z.to_nat me) <> None) by congruence. apply nth_error_Some in H0. change (List.length all_methods) with 9 in H0. lia.
Qed.
Lemma one_mem' : forall z n, mem z [Ivl n n] <-> z = n.
Proof. intros z n. rewrite mem_cons, mem_nil. cbn [lo hi]. lia. Qed.
Lemma regex_methods : forall f r, m_add_regex [] f = Some r -> ConnDict.in_range 0 8 r /\ forall me, mem me r <-> exists name, method_name me name /\ f name = true.
Proof.
  intros f r E. unfold m_add_regex in E.
  assert (G : forall t (acc : iset) r, (forall im, In im t -> (0 <= fst im <= 8)%Z) -> ConnDict.in_range 0 8 acc ->
    fold_left (fun acc im => bind acc (fun r => if f (snd im) then add_interval r (Ivl (fst im) (fst im)) else Some r)) t (Some acc) = Some r ->
    ConnDict.in_range 0 8 r /\ forall me, mem me r <-> mem me acc \/ exists name, In (me, name) t /\ f name = true).
  { clear. induction t as [|[i name] t IH]; intros acc r B A E.
    - cbn [fold_left] in E. injection E as <-. split; [exact A|]. intros me. split; [auto|intros [H|(n & [] & _)]; exact H].
    - cbn [fold_left bind fst snd] in E. pose proof (B _ (or_introl eq_refl)) as Bi. cbn [fst] in Bi.
      assert (X : exists a1, (if f name then add_interval acc (Ivl i i) else Some acc) = Some a1 /\ ConnDict.in_range 0 8 a1 /\ forall me, mem me a1 <-> mem me acc \/ me = i /\ f name = true).
      { destruct (f name) eqn:Ef; [|exists acc; split; [reflexivity|split; [exact A|intros me; split; [auto|intros [H|[_ H]]; [exact H|discriminate]]]]].
        destruct A as [A1 A2]. destruct (add_interval_ok acc (Ivl i i) A1) as (a1 & E1 & C1 & M1 & _); [cbn; lia|]. exists a1. split; auto.
        assert (M : forall me, mem me a1 <-> mem me acc \/ me = i) by (intros me; rewrite M1; cbn [lo hi]; split; intros [H|H]; try (left; exact H); right; lia).
        split; [split; [exact C1|]|]; [intros z Hz; apply M in Hz as [Hz| ->]; [apply A2; exact Hz|exact Bi]|]. intros me. rewrite M. split; [intros [H|H]; auto|intros [H|[H _]]; auto]. }
      destruct X as (a1 & E1 & R1 & M1). rewrite E1 in E. destruct (IH a1 r (fun im H => B im (or_intror H)) R1 E) as [I1 I2]. split; [exact I1|].
      intros me. rewrite I2, M1. cbn [In]. split.
      + intros [[H|[-> H]]|(n & H1 & H2)]; [auto|right; exists name; auto|right; exists n; auto].
      + intros [H|(n & [Q|H1] & H2)]; [auto|injection Q as <- <-; auto|right; exists n; auto]. }
  destruct (G (combine (zrange 0 8) all_methods) [] r) as [G1 G2]; [| |exact E|].
  - intros [i n] H. apply in_combine_l in H. unfold zrange in H. cbn [fst]. vm_compute in H. repeat (destruct H as [<-|H]; [lia|]). destruct H.
  - split; [exact I|]. intros z Hz. destruct (proj1 (mem_nil z) Hz).
  - split; [exact G1|]. intros me. rewrite G2. rewrite mem_nil. split.
    + intros [[]|(name & H1 & H2)]. exists name. split; [|exact H2]. vm_compute in H1. unfold method_name. repeat (destruct H1 as [Q|H1]; [injection Q as <- <-; split; [lia|reflexivity]|]). destruct H1.
    + intros (name & [H0 H1] & H2). right. exists name. split; [|exact H2]. assert (Hm : (0 <= me <= 8)%Z) by (apply method_range; exists name; split; auto).
      assert (me = 0 \/ me = 1 \/ me = 2 \/ me = 3 \/ me = 4 \/ me = 5 \/ me = 6 \/ me = 7 \/ me = 8)%Z as Q by lia.
      repeat (destruct Q as [->|Q]; [injection H1 as <-; vm_compute; auto 12|]). subst me. injection H1 as <-. vm_compute. auto 12.
Qed.
Lemma methods_or : forall a m r, opt (fun x => x <> [] /\ ConnDict.in_range 0 8 x) a -> m <> [] -> ConnDict.in_range 0 8 m -> or_methods a m = Some r ->
  r <> [] /\ ConnDict.in_range 0 8 r /\ forall z, mem z r <-> (exists u, a = Some u /\ mem z u) \/ mem z m.
Proof.
  intros a m r Ha Nm Hm E. destruct a as [u|]; cbn [or_methods opt] in *.
  - destruct Ha as [Nu Hu]. destruct u as [|i u]; [congruence|]. destruct (in_range_or 0 8 (i :: u) m r Hu Hm E) as [R M]. split; [|split; [exact R|]].
    + intros ->. destruct m as [|j m]; [congruence|]. destruct Hm as [Cm _]. assert (H : mem (lo j) []); [|exact (proj1 (mem_nil _) H)]. apply M. right. exists j. split; [left; reflexivity|].
      pose proof (canonical_in _ _ Cm (or_introl eq_refl)). lia.
    + intros z. rewrite M. split; [intros [H|H]; [left; eauto|auto]|intros [(v & Q & H)|H]; [injection Q as <-; auto|auto]].
  - injection E as <-. split; auto. split; auto. intros z. split; [auto|intros [(v & Q & _)|H]; [discriminate|exact H]].
Qed.
Lemma whole_methods_spec : whole_methods <> [] /\ ConnDict.in_range 0 8 whole_methods /\ forall me, mem me whole_methods <-> (0 <= me <= 8)%Z.
Proof.
  change whole_methods with [Ivl 0 8]%Z. assert (M : forall me, mem me [Ivl 0 8]%Z <-> (0 <= me <= 8)%Z) by (intros me; rewrite mem_cons, mem_nil; cbn [lo hi]; lia).
  split; [discriminate|]. split; [|exact M]. split; [cbn; lia|]. intros z Hz. apply M. exact Hz.
Qed.

Section Matches.
Context (code : word -> Z) (dfa : list ascii -> val) (CO : code_ok code) (C0 : code [] = 0%Z).
Context (rematch : list ascii -> list ascii -> bool).
(** re.match for the beginnings of the names of methods, also followed by [allowed_chars*]. *)
Context (RM : forall l name t name', l <> [] -> In name all_methods -> text name = l ++ t -> In name' all_methods ->
  rematch l (text name') = starts_with l (text name') /\ rematch (l ++ allowed_chars ++ ["*"%char]) (text name') = starts_with l (text name')).
Let O := val_ops std_dom.
Notation wset := (word_set std_dom).

(** ** Paths of a match *)
Definition uri_benign (y : yaml) : Prop := forall kind s, text_given "uri" y kind s ->
  kind = "exact" /\ path_ok (text s) = true /\ ~ In "."%char (text s) /\ PropIngressPaths.reads code dfa 7 (text s) \/
  kind = "prefix" /\ (text s = ["/"%char] \/ path_ok (text s) = true /\ ~ In "."%char (text s) /\ ends_slash (text s) = false /\ PropIngressPaths.reads code dfa 7 (prefix_regex (text s))) \/
  kind = "regex" /\ PropIngressPaths.reads code dfa 7 (text s) /\ exists e w, read_rx (text s) = Some e /\ domain_word 7 w /\ rx_matches e w.
Lemma path_plain : forall p, path_ok p = true -> ~ In "."%char p -> plain_word p /\ domain_word 7 p.
Proof using.
  intros p H N. destruct p as [|c p]; [discriminate|]. cbn [path_ok] in H. apply andb_true_iff in H as [H1 H2]. apply Ascii.eqb_eq in H1. subst c. rewrite forallb_forall in H2. split.
  - apply Forall_forall. intros c Hc. split; [apply H2; exact Hc|]. intros ->. exact (N Hc).
  - split; [apply Forall_forall; intros c Hc; exact (H2 c Hc)|]. intros _. exists p. reflexivity.
Qed.
Lemma code_pos : forall w, domain_word 7 w -> code w <> 0%Z.
Proof using CO. intros w [_ H]. destruct (H eq_refl) as (t & ->). apply CO. discriminate. Qed.
Lemma uri_match_spec : forall m o, uri_match std_dom dfa m = Some o -> uri_benign (YMap m) ->
  match o with
  | None => ~ has_text "uri" (YMap m)
  | Some v => has_text "uri" (YMap m) /\ wset 7 v /\ forall w, path_fair [YMap m] w -> (val_mem (code w) v <-> takes_uri (YMap m) w)
  end.
Proof using CO.
  intros m o E B. unfold uri_match in E. destruct (string_match m "uri") as [q|] eqn:Eq; [|discriminate]. cbn [option_map] in E. injection E as <-.
  pose proof (string_match_spec _ _ _ Eq) as S. destruct q as [[kind s]|]; cbn [option_map].
  2:{ intros (kind & s & H). exact (S kind s H). }
  cbn [fst snd]. split; [exists kind, s; exact S|].
  assert (T : forall w, takes_uri (YMap m) w <-> uri_fits kind s w).
  { intros w. split; [intros H; exact (H _ _ S)|]. intros H kind' s' S'. destruct (text_given_fn _ _ _ _ _ _ S S') as [-> ->]. exact H. }
  destruct (B kind s S) as [(-> & P & ND & V & Rd)|[(-> & X)|(-> & (V & Rd) & e & w0 & Ee & Dw & Mw)]].
  - cbn [String.eqb Ascii.eqb Bool.eqb]. destruct (path_plain _ P ND) as [Pl Dw]. destruct (exact_language _ Pl) as (r & Er & M). split.
    + split; [exact V|]. exists (code (text s)). split; [apply code_pos; exact Dw|]. apply (Rd r _ Dw Er). apply M. reflexivity.
    + intros w [Hw _]. rewrite T, (Rd r w Hw Er), M. unfold uri_fits. split; [auto|intros [[_ H]|[[H _]|[H _]]]; [exact H|discriminate|discriminate]].
  - cbn [String.eqb Ascii.eqb Bool.eqb]. destruct X as [X|(P & ND & Es & V & Rd)].
    + rewrite X. cbn [prefix_dfa Ascii.eqb Bool.eqb]. split.
      * split; [exact dom7_valid|]. exists 1%Z. split; [discriminate|apply dom7_all].
      * intros w [[_ Hw] _]. rewrite T. split; [intros _|intros _; apply dom7_all]. right. left. split; auto. rewrite X. destruct (Hw eq_refl) as (t & ->). exists t. reflexivity.
    + destruct (path_plain _ P ND) as [Pl Dw].
      assert (Ep : prefix_dfa std_dom dfa (text s) = dfa (prefix_regex (text s))).
      { unfold prefix_dfa. destruct (text s) as [|c [|c' l]]; auto. destruct (Ascii.eqb_spec c "/") as [->|N]; auto. discriminate Es. }
      assert (Er : prefix_regex (text s) = text s ++ text "(/[.\w/\-]*)?") by (unfold prefix_regex, no_slash; rewrite Es; reflexivity).
      rewrite Ep. destruct (prefix_language _ Pl) as (r & Rr & M). rewrite <- Er in Rr. split.
      * split; [exact V|]. exists (code (text s)). split; [apply code_pos; exact Dw|]. apply (Rd r _ Dw Rr). apply M. auto.
      * intros w [Hw Fw]. rewrite T, (Rd r w Hw Rr), M. unfold uri_fits. split.
        -- intros [->|(t & -> & _)]; right; left; (split; [reflexivity|]); [exists []; rewrite app_nil_r; reflexivity|eauto].
        -- intros [[H _]|[[_ (t & Et)]|[H _]]]; try discriminate. destruct (Fw (YMap m) s t (or_introl eq_refl) S Et) as [H|[->|(u & ->)]].
           ++ rewrite H in Es. discriminate Es.
           ++ left. rewrite app_nil_r in Et. exact Et.
           ++ right. exists u. split; [exact Et|]. destruct Hw as [Hw _]. rewrite Et in Hw. apply Forall_app in Hw as [_ Hw]. inversion Hw; auto.
  - cbn [String.eqb Ascii.eqb Bool.eqb]. split.
    + split; [exact V|]. exists (code w0). split; [apply code_pos; exact Dw|]. apply (Rd e _ Dw Ee). exact Mw.
    + intros w [Hw _]. rewrite T, (Rd e w Hw Ee). unfold uri_fits. split.
      * intros H. right. right. split; auto. exists e. auto.
      * intros [[H _]|[[H _]|[_ (e' & Ee' & H)]]]; try discriminate. rewrite Ee in Ee'. injection Ee' as <-. exact H.
Qed.

(** ** Methods of a match *)
Definition method_benign (y : yaml) : Prop := forall kind s, text_given "method" y kind s ->
  kind = "exact" /\ In s all_methods \/ kind = "prefix" /\ s <> "" /\ exists name t, In name all_methods /\ text name = text s ++ t.
Lemma text_ne : forall s, s <> "" -> text s <> [].
Proof using. intros [|c s] H; [congruence|discriminate]. Qed.
Lemma text_inj : forall a b, text a = text b -> a = b.
Proof using. induction a as [|c a IH]; intros [|d b] E; try discriminate; [reflexivity|]. injection E as -> E. f_equal. apply IH. exact E. Qed.
(** No name of a method is the beginning of another one. *)
Lemma method_prefix : forall a b, In a all_methods -> In b all_methods -> starts_with (text a) (text b) = true -> a = b.
Proof using.
  assert (X : forallb (fun a => forallb (fun b => negb (starts_with (text a) (text b)) || String.eqb a b) all_methods) all_methods = true) by (vm_compute; reflexivity).
  intros a b Ha Hb H. rewrite forallb_forall in X. specialize (X a Ha). rewrite forallb_forall in X. specialize (X b Hb). rewrite H in X. apply String.eqb_eq. exact X.
Qed.
Lemma method_in : forall me name, method_name me name -> In name all_methods.
Proof using. intros me name [_ H]. apply nth_error_In in H. exact H. Qed.
Lemma in_method : forall name, In name all_methods -> exists me, method_name me name.
Proof using. intros name H. apply In_nth_error in H as (n & E). exists (Z.of_nat n). split; [lia|]. rewrite Nat2Z.id. exact E. Qed.
Lemma method_match_spec : forall m o, method_match rematch m = Some o -> method_benign (YMap m) ->
  let s := match o with Some ((_ :: _) as x) => x | _ => whole_methods end in s <> [] /\ ConnDict.in_range 0 8 s /\ forall me, mem me s <-> takes_method (YMap m) me.
Proof using RM.
  intros m o E B. unfold method_match in E. destruct (string_match m "method") as [q|] eqn:Eq; [|discriminate]. cbn [bind] in E.
  pose proof (string_match_spec _ _ _ Eq) as S. destruct q as [[kind s]|].
  2:{ injection E as <-. cbv zeta. destruct whole_methods_spec as (W1 & W2 & W3). split; auto. split; auto. intros me. rewrite W3, method_range. unfold takes_method. split.
      - intros (name & H). exists name. split; auto. intros kind s H'. destruct (S kind s H').
      - intros (name & H & _). eauto. }
  cbn [fst snd] in E. destruct (m_add_regex [] _) as [r|] eqn:Er; [|discriminate]. cbn [option_map] in E. injection E as <-.
  destruct (regex_methods _ _ Er) as [R M].
  assert (T : forall me, takes_method (YMap m) me <-> exists name, method_name me name /\ method_fits kind s name).
  { intros me. unfold takes_method. split; intros (name & H1 & H2); exists name; (split; [exact H1|]); [exact (H2 _ _ S)|]. intros kind' s' S'. destruct (text_given_fn _ _ _ _ _ _ S S') as [-> ->]. exact H2. }
  assert (Key : (exists me, mem me r) /\ forall me, mem me r <-> takes_method (YMap m) me).
  { assert (Fit : (forall name, In name all_methods -> (rematch (if String.eqb kind "prefix" then text s ++ allowed_chars ++ ["*"%char] else text s) (text name) = true <-> method_fits kind s name)) /\ exists name, In name all_methods /\ method_fits kind s name).
    { destruct (B kind s S) as [[-> Hs]|(-> & Ns & n0 & t0 & Hn & Et)]; cbn [String.eqb Ascii.eqb Bool.eqb].
      - split; [|exists s; split; [exact Hs|left; auto]]. intros name Hname. assert (Ns : text s <> []) by (intros Q; apply (text_inj s "") in Q; subst s; vm_compute in Hs; repeat (destruct Hs as [Hs|Hs]; [discriminate|]); exact Hs).
        destruct (RM (text s) s [] name Ns Hs) as [R1 _]; [rewrite app_nil_r; reflexivity|exact Hname|]. rewrite R1. unfold method_fits. split.
        + intros H. left. split; auto. symmetry. apply method_prefix; auto.
        + intros [[_ ->]|[H _]]; [|discriminate]. apply starts_app. exists []. rewrite app_nil_r. reflexivity.
      - split; [|exists n0; split; [exact Hn|right; split; [reflexivity|eauto]]]. intros name Hname. destruct (RM (text s) n0 t0 name (text_ne s Ns) Hn Et Hname) as [_ R2]. rewrite R2, starts_app. unfold method_fits. split.
        + intros H. right. auto.
        + intros [[H _]|[_ H]]; [discriminate|exact H]. }
    destruct Fit as [Fit (n0 & Hn0 & F0)]. assert (M' : forall me, mem me r <-> takes_method (YMap m) me).
    { intros me. rewrite T, M. split; intros (name & H1 & H2); exists name; (split; [exact H1|]); apply (Fit name (method_in me name H1)); exact H2. }
    split; [|exact M']. destruct (in_method n0 Hn0) as (me & Hme). exists me. apply M', T. exists n0. auto. }
  destruct Key as [(me0 & H0) Key]. cbv zeta. destruct r as [|i r]; [destruct (proj1 (mem_nil _) H0)|]. split; [discriminate|]. split; [exact R|exact Key].
Qed.

(** ** The gateways of a route *)
Definition item_gateways (y : yaml) : list yaml := match y with YMap m => gateways_list m | _ => [] end.
(** The gateways of the VirtualService with the specification [sp]; without a list, the mesh. *)
Definition vs_bound (ns : string) (sp : dict) (n : string) : Prop := names_say ns (gateways_list sp) n \/ gateways_list sp = [] /\ n = "mesh".
(** Those of a match: its own ones, or those of the VirtualService. *)
Definition item_bound (ns : string) (sp : dict) (y : yaml) (n : string) : Prop :=
  if match item_gateways y with [] => true | _ => false end then vs_bound ns sp n else names_say ns (item_gateways y) n.
Definition all_or_none (P : yaml -> Prop) (ys : list yaml) : Prop := (forall y, In y ys -> P y) \/ forall y, In y ys -> ~ P y.
Definition own_gateways (y : yaml) : Prop := item_gateways y <> [].
(** What the names of a route and of its VirtualService say together. *)
Lemma names_item : forall ns sp (gws : list string) (own : list string) ys, ys <> [] -> all_or_none own_gateways ys ->
  (forall n, In n gws <-> vs_bound ns sp n) -> (forall n, In n own <-> exists y, In y ys /\ names_say ns (item_gateways y) n) -> (own = [] <-> forall y, In y ys -> item_gateways y = []) ->
  forall n, In n (match own with [] => gws | l => l end) <-> exists y, In y ys /\ item_bound ns sp y n.
Proof using.
  intros ns sp gws own ys NE AN G M Z n. destruct own as [|a own'].
  - rewrite G. assert (Al : forall y, In y ys -> item_gateways y = []) by (apply Z; reflexivity). split.
    + intros H. destruct ys as [|y ys]; [congruence|]. exists y. split; [left; reflexivity|]. unfold item_bound. rewrite (Al y (or_introl eq_refl)). exact H.
    + intros (y & Hy & H). unfold item_bound in H. rewrite (Al y Hy) in H. exact H.
  - rewrite M. destruct AN as [AN|AN].
    + split; intros (y & Hy & H); exists y; (split; [exact Hy|]); unfold item_bound in *; specialize (AN y Hy); unfold own_gateways in AN; destruct (item_gateways y) eqn:Ei; try congruence; exact H.
    + exfalso. assert (X : a :: own' = []); [|discriminate]. apply Z. intros y Hy. specialize (AN y Hy). unfold own_gateways in AN. destruct (item_gateways y); [reflexivity|]. destruct AN. discriminate.
Qed.

(** ** The matches of an http route *)
Definition http_state (ns : string) (ys t : list yaml) (r : route) : Prop :=
  (rt_internal r = None /\ rt_dests r = [] /\ rt_sni r = None) /\
  match rt_uri r with
  | None => forall y, In y t -> ~ has_text "uri" y
  | Some v => (exists y, In y t /\ has_text "uri" y) /\ wset 7 v /\ forall w, path_fair ys w -> (val_mem (code w) v <-> exists y, In y t /\ has_text "uri" y /\ takes_uri y w)
  end /\
  match rt_methods r with
  | None => t = []
  | Some ms => t <> [] /\ ms <> [] /\ ConnDict.in_range 0 8 ms /\ forall me, mem me ms <-> exists y, In y t /\ takes_method y me
  end /\
  (forall n, In n (rt_gateways r) <-> exists y, In y t /\ names_say ns (item_gateways y) n) /\ (rt_gateways r = [] <-> forall y, In y t -> item_gateways y = []).
Lemma wset_or : forall u v, wset 7 u -> wset 7 v -> vbool O u = true /\ wset 7 (vor O u v) /\ forall x, val_mem x (vor O u v) <-> val_mem x u \/ val_mem x v.
Proof using.
  intros u v [Vu (x & Nx & Hx)] [Vv _]. assert (M : forall x, val_mem x (vor O u v) <-> val_mem x u \/ val_mem x v) by (intros z; apply (L_or _ _ _ std_vals 7); auto).
  split; [apply (L_bool _ _ _ std_vals 7 u Vu); eauto|]. split; [|exact M]. split; [apply (L_or_valid _ _ _ std_vals); auto|]. exists x. split; auto. apply M. auto.
Qed.
Lemma app_In1 : forall {X} (l : list X) y (P : X -> Prop), (exists z, In z (l ++ [y]) /\ P z) <-> (exists z, In z l /\ P z) \/ P y.
Proof using.
  intros X l y P. split.
  - intros (z & H & Pz). apply in_app_or in H as [H|[<-|[]]]; [left; eauto|right; exact Pz].
  - intros [(z & H & Pz)|Py]; [exists z|exists y]; (split; [apply in_or_app; cbn; auto|auto]).
Qed.
Lemma app_all1 : forall {X} (l : list X) y (P : X -> Prop), (forall z, In z (l ++ [y]) -> P z) <-> (forall z, In z l -> P z) /\ P y.
Proof using.
  intros X l y P. split; [intros H; split; [intros z Hz|]; apply H, in_or_app; cbn; auto|]. intros [H Py] z Hz. apply in_app_or in Hz as [Hz|[<-|[]]]; auto.
Qed.
Lemma fold_none : forall {X Y} (f : X -> Y -> option X) l, fold_left (fun acc y => bind acc (fun a => f a y)) l None = None.
Proof using. intros X Y f l. induction l as [|y l IH]; auto. Qed.
Lemma http_matches_spec : forall ns ys r, fold_left (fun acc y => bind acc (fun r => http_match std_dom dfa rematch ns r y)) ys (Some route0) = Some r ->
  (forall y, In y ys -> uri_benign y /\ method_benign y) -> http_state ns ys ys r.
Proof using CO RM.
  intros ns ys r E B.
  assert (G : forall t d r0, (forall y, In y t -> In y ys) -> http_state ns ys d r0 -> fold_left (fun acc y => bind acc (fun r => http_match std_dom dfa rematch ns r y)) t (Some r0) = Some r -> http_state ns ys (d ++ t) r).
  { induction t as [|y t IH]; intros d r0 It S Ef.
    - cbn [fold_left] in Ef. injection Ef as <-. rewrite app_nil_r. exact S.
    - cbn [fold_left bind] in Ef. destruct (http_match std_dom dfa rematch ns r0 y) as [r1|] eqn:E1; [|rewrite fold_none in Ef; discriminate].
      assert (S1 : http_state ns ys (d ++ [y]) r1); [|replace (d ++ y :: t) with ((d ++ [y]) ++ t) by (rewrite <- app_assoc; reflexivity); exact (IH _ _ (fun z Hz => It z (or_intror Hz)) S1 Ef)].
      clear IH Ef. pose proof (It y (or_introl eq_refl)) as Iy. destruct (B y Iy) as [Bu Bm]. unfold http_match in E1.
      match type of E1 with bind ?e _ = _ => destruct e as [m|] eqn:Em; [|discriminate] end. cbn [bind] in E1. apply check_fields_map in Em as [-> _].
      destruct (uri_match std_dom dfa m) as [u|] eqn:Eu; [|discriminate]. cbn [bind] in E1. destruct (method_match rematch m) as [ms|] eqn:Ems; [|discriminate]. cbn [bind] in E1.
      match type of E1 with bind ?e _ = _ => destruct e as [ms'|] eqn:Eo; [|discriminate] end. cbn [bind] in E1. destruct (vs_gateway_names ns m false (rt_gateways r0)) as [gws|] eqn:Eg; [|discriminate]. cbn [bind] in E1.
      injection E1 as <-. destruct S as ((Si & Sd & Ss) & Su & Sm & Sg & Sz). unfold http_state. cbn [rt_internal rt_dests rt_sni rt_uri rt_methods rt_gateways].
      split; [auto|]. split; [|split; [|split]].
      + pose proof (uri_match_spec m u Eu Bu) as U. destruct u as [v|].
        * destruct U as (U1 & U2 & U3). assert (Hv : vbool O v = true) by (destruct U2 as [V (x & _ & Hx)]; apply (L_bool _ _ _ std_vals 7 v V); eauto). change (val_bool v = true) in Hv. rewrite Hv.
          assert (Fw : forall w, path_fair ys w -> path_fair [YMap m] w) by (intros w [F1 F2]; split; auto; intros y s x [<-|[]]; apply F2; exact Iy).
          destruct (rt_uri r0) as [u0|]; cbn [or_word].
          -- destruct Su as (_ & Su2 & Su3). destruct (wset_or u0 v Su2 U2) as (W0 & W1 & W2). change (val_bool u0 = true) in W0. match goal with |- context [if ?b then ?x else ?y] => change b with (val_bool u0); rewrite W0 end. split; [apply app_In1; auto|]. split; [exact W1|]. intros w Hw. change (val_ops std_dom) with O. rewrite W2, (Su3 w Hw), (U3 w (Fw w Hw)), app_In1. tauto.
          -- split; [apply app_In1; auto|]. split; [exact U2|]. intros w Hw. rewrite (U3 w (Fw w Hw)), app_In1. split; [auto|]. intros [(z & Hz & H & _)|[_ H]]; [destruct (Su z Hz H)|exact H].
        * destruct (rt_uri r0) as [u0|].
          -- destruct Su as (Su1 & Su2 & Su3). split; [apply app_In1; auto|]. split; [exact Su2|]. intros w Hw. rewrite (Su3 w Hw), app_In1. tauto.
          -- apply app_all1. auto.
      + destruct (method_match_spec m ms Ems Bm) as (M1 & M2 & M3). assert (Ho : opt (fun x => x <> [] /\ ConnDict.in_range 0 8 x) (rt_methods r0)) by (destruct (rt_methods r0); cbn [opt]; tauto).
        destruct (methods_or _ _ _ Ho M1 M2 Eo) as (N1 & N2 & N3). split; [destruct d; discriminate|]. split; auto. split; auto. intros me. rewrite N3, M3, app_In1.
        destruct (rt_methods r0) as [m0|].
        * destruct Sm as (_ & _ & _ & Sm). split; (intros [H|H]; [left|auto]); [destruct H as (u1 & Q & H); injection Q as <-; apply Sm; exact H|exists m0; split; auto; apply Sm; exact H].
        * subst d. split; [intros [(u1 & Q & _)|H]; [discriminate|auto]|intros [(z & [] & _)|H]; auto].
      + destruct (gateway_names_spec _ _ _ _ _ Eg) as [G1 _]. intros n. rewrite G1, Sg, app_In1. cbn [item_gateways]. split; [intros [H|[H|(_ & H & _)]]; auto; discriminate|intros [H|H]; auto].
      + destruct (gateway_names_spec _ _ _ _ _ Eg) as [_ G2]. rewrite G2, Sz, app_all1. cbn [item_gateways]. tauto. }
  apply (G ys [] route0 (fun y H => H)); [|exact E]. split; [auto|]. cbn [rt_uri rt_methods rt_gateways route0]. split; [intros y []|]. split; [reflexivity|]. split; [intros n; split; [intros []|intros (y & [] & _)]|]. split; [intros _ y []|reflexivity].
Qed.
Definition names_of (gws gs : list string) : list string := match gs with [] => gws | _ :: _ => gs end.
(** What an http route takes: the name of a gateway, a path and a method.  Without matches everything. *)
Definition http_takes (ns : string) (sp : dict) (ys : list yaml) (n : string) (w : word) (me : Z) : Prop :=
  ys = [] /\ vs_bound ns sp n \/ exists y, In y ys /\ item_bound ns sp y n /\ takes_uri y w /\ takes_method y me.
(** The parts of different matches may be combined. *)
Definition http_whole (ns : string) (sp : dict) (ys : list yaml) : Prop :=
  all_or_none (has_text "uri") ys /\ all_or_none own_gateways ys /\
  forall a b c, In a ys -> In b ys -> In c ys -> exists d, In d ys /\ (forall w, takes_uri a w -> takes_uri d w) /\ (forall me, takes_method b me -> takes_method d me) /\
    forall n, item_bound ns sp c n -> item_bound ns sp d n.
Lemma no_text : forall y w, ~ has_text "uri" y -> takes_uri y w.
Proof using. intros y w N kind s H. destruct N. exists kind, s. exact H. Qed.
Lemma http_request : forall ns sp ys r gws, http_state ns ys ys r -> http_whole ns sp ys -> (forall n, In n gws <-> vs_bound ns sp n) ->
  forall n w me, path_fair ys w ->
  (In n (names_of gws (rt_gateways r)) /\ opt (val_mem (code w)) (rt_uri r) /\ opt (mem me) (rt_methods r) <-> http_takes ns sp ys n w me).
Proof using.
  intros ns sp ys r gws (_ & Su & Sm & Sg & Sz) (Au & Ag & Rc) G n w me Fw. unfold http_takes. destruct ys as [|y0 ys0] eqn:Ey.
  - assert (E1 : rt_uri r = None) by (destruct (rt_uri r); [destruct Su as ((y & [] & _) & _)|reflexivity]). assert (E2 : rt_methods r = None) by (destruct (rt_methods r); [destruct Sm as [Sm _]; congruence|reflexivity]).
    assert (E3 : rt_gateways r = []) by (apply Sz; intros y []). rewrite E1, E2, E3. cbn [opt]. rewrite G. split; [intros [H _]; auto|intros [[_ H]|(y & [] & _)]; auto].
  - rewrite <- Ey in *. assert (NE : ys <> []) by (rewrite Ey; discriminate). assert (I0 : In y0 ys) by (rewrite Ey; left; reflexivity). clear Ey.
    unfold names_of. rewrite (names_item ns sp gws (rt_gateways r) ys NE Ag G Sg Sz n).
    assert (Xu : opt (val_mem (code w)) (rt_uri r) <-> exists y, In y ys /\ takes_uri y w).
    { destruct (rt_uri r) as [v|]; cbn [opt].
      - destruct Su as ((y1 & H1 & T1) & _ & Su). rewrite (Su w Fw). destruct Au as [Au|Au]; [|destruct (Au y1 H1 T1)]. split; intros (y & H & H'); exists y; (split; [exact H|]); [apply H'|split; [apply Au; exact H|exact H']].
      - split; auto. intros _. exists y0. split; auto. apply no_text. apply Su. exact I0. }
    assert (Xm : opt (mem me) (rt_methods r) <-> exists y, In y ys /\ takes_method y me).
    { destruct (rt_methods r) as [ms|]; cbn [opt]; [apply Sm|congruence]. }
    rewrite Xu, Xm. split.
    + intros ((c & Hc & Bc) & (a & Ha & Ta) & (b & Hb & Tb)). right. destruct (Rc a b c Ha Hb Hc) as (d & Hd & D1 & D2 & D3). exists d. auto.
    + intros [[H _]|(y & Hy & H1 & H2 & H3)]; [congruence|]. eauto 10.
Qed.
Lemma http_route_good : forall ns ys r, http_state ns ys ys r -> opt (wset 7) (rt_uri r) /\ opt (fun m => m <> [] /\ ConnDict.in_range 0 8 m) (rt_methods r) /\ rt_sni r = None.
Proof using.
  intros ns ys r ((_ & _ & Es) & Su & Sm & _). split; [destruct (rt_uri r); cbn [opt]; tauto|]. split; [destruct (rt_methods r); cbn [opt]; tauto|exact Es].
Qed.

(** ** The hosts of a VirtualService *)
Lemma vs_hosts_spec : forall l hosts, vs_hosts_of std_dom dfa l = Some hosts -> hosts_benign code dfa l ->
  (forall v, In v hosts <-> exists s, In (YStr s) l /\ unscoped s /\ gw_host std_dom dfa (YStr s) = Some (Some v)) /\
  (forall v, In v hosts -> host_set v) /\ forall h, fair_for l h -> ((exists v, In v hosts /\ val_mem (code h) v) <-> hosts_say l h).
Proof using CO C0.
  intros l hosts E B. unfold vs_hosts_of in E. destruct (mapM (gw_host std_dom dfa) l) as [os|] eqn:Em; [|discriminate]. cbn [bind] in E. injection E as <-.
  assert (A1 : forall o, In o os -> exists s, In (YStr s) l /\ gw_host std_dom dfa (YStr s) = Some o).
  { clear B. revert os Em. induction l as [|y l IH]; intros os Em; cbn [mapM] in Em; [injection Em as <-; intros o []|].
    destruct (gw_host std_dom dfa y) as [oy|] eqn:Ey; [|discriminate]. cbn [bind] in Em. destruct (mapM _ l) as [os'|] eqn:Eo; [|discriminate]. cbn [bind] in Em. injection Em as <-.
    destruct (gw_host_str dfa y oy Ey) as [s ->]. intros o [<-|H]; [exists s; split; [left; reflexivity|exact Ey]|]. destruct (IH os' eq_refl o H) as (s' & H1 & H2). exists s'. split; [right|]; auto. }
  assert (A2 : forall s, In (YStr s) l -> exists o, In o os /\ gw_host std_dom dfa (YStr s) = Some o).
  { clear B A1. revert os Em. induction l as [|y l IH]; intros os Em; cbn [mapM] in Em; [intros s []|].
    destruct (gw_host std_dom dfa y) as [oy|] eqn:Ey; [|discriminate]. cbn [bind] in Em. destruct (mapM _ l) as [os'|] eqn:Eo; [|discriminate]. cbn [bind] in Em. injection Em as <-.
    intros s [->|H]; [exists oy; split; [left; reflexivity|exact Ey]|]. destruct (IH os' eq_refl s H) as (o & H1 & H2). exists o. split; [right|]; auto. }
  assert (M : forall v, In v (flat_map (fun o => match o with Some v => if vbool O v then [v] else [] | None => [] end) os) <-> exists s, In (YStr s) l /\ unscoped s /\ gw_host std_dom dfa (YStr s) = Some (Some v)).
  { intros v. rewrite in_flat_map. split.
    - intros (o & Ho & H). destruct o as [u|]; [|destruct H]. destruct (A1 _ Ho) as (s & Hs & Es). destruct (gw_host_spec code dfa CO C0 s _ Es (B s Hs)) as [(U & _)|[_ Q]]; [|discriminate].
      exists s. split; auto. split; auto. destruct (vbool O u); [|destruct H]. destruct H as [<-|[]]. exact Es.
    - intros (s & Hs & U & Es). destruct (A2 s Hs) as (o & Ho & Eo). rewrite Es in Eo. injection Eo as <-. exists (Some v). split; auto.
      destruct (gw_host_spec code dfa CO C0 s _ Es (B s Hs)) as [(_ & v' & Q & Hv & _)|[N _]]; [|tauto]. injection Q as <-. unfold O. rewrite (hset_bool v Hv). left. reflexivity. }
  split; [exact M|].
  assert (S : forall s v, In (YStr s) l -> gw_host std_dom dfa (YStr s) = Some (Some v) -> host_set v /\ forall h, fair_for l h -> (val_mem (code h) v <-> host_matches s h)).
  { intros s v Hs Es. destruct (gw_host_spec code dfa CO C0 s _ Es (B s Hs)) as [(_ & v' & Q & Hv & Mv)|[_ Q]]; [|discriminate]. injection Q as <-. split; auto. intros h Fh. apply Mv. exact (fair_one l s h Fh Hs). }
  split.
  - intros v Hv. apply M in Hv as (s & Hs & _ & Es). exact (proj1 (S s v Hs Es)).
  - intros h Fh. split.
    + intros (v & Hv & Mh). apply M in Hv as (s & Hs & U & Es). exists s. split; auto. split; auto. apply (proj2 (S s v Hs Es) h Fh). exact Mh.
    + intros (s & Hs & U & Mh). destruct (A2 s Hs) as (o & Ho & Eo). destruct (gw_host_spec code dfa CO C0 s _ Eo (B s Hs)) as [(_ & v & -> & Hv & Mv)|[N _]]; [|tauto].
      exists v. split; [apply M; exists s; auto|]. apply Mv; [exact (fair_one l s h Fh Hs)|exact Mh].
Qed.

(** ** The matches of a tls route *)
Definition sni_list (y : yaml) : list yaml := match y with YMap m => ylist (yget m "sniHosts") | _ => [] end.
(** The hosts of a match are among the hosts of the VirtualService, as they are written there. *)
Definition sni_benign (hl : list yaml) (y : yaml) : Prop := sni_list y <> [] /\ forall z, In z (sni_list y) -> In z hl /\ exists s, z = YStr s /\ unscoped s.
Definition tls_state (ns : string) (t : list yaml) (r : route) : Prop :=
  (rt_internal r = None /\ rt_dests r = [] /\ rt_uri r = None /\ rt_methods r = None) /\ opt host_set (rt_sni r) /\
  (forall x, some_mem x (rt_sni r) <-> exists y s v, In y t /\ In (YStr s) (sni_list y) /\ gw_host std_dom dfa (YStr s) = Some (Some v) /\ val_mem x v) /\
  (forall n, In n (rt_gateways r) <-> exists y, In y t /\ names_say ns (item_gateways y) n) /\ (rt_gateways r = [] <-> forall y, In y t -> item_gateways y = []) /\
  (t <> [] -> rt_sni r <> None) /\ forall y s, In y t -> In (YStr s) (sni_list y) -> exists v, gw_host std_dom dfa (YStr s) = Some (Some v).
Definition sni_has (l : list yaml) (x : Z) : Prop := exists s v, In (YStr s) l /\ gw_host std_dom dfa (YStr s) = Some (Some v) /\ val_mem x v.
Lemma sni_steps : forall hl, hosts_benign code dfa hl -> forall l a o, (forall z, In z l -> In z hl /\ exists s, z = YStr s /\ unscoped s) -> opt host_set a -> fold_left (sni_step std_dom dfa) l (Some a) = Some o ->
  opt host_set o /\ (forall x, some_mem x o <-> some_mem x a \/ sni_has l x) /\ (l <> [] \/ a <> None -> o <> None) /\
  forall s, In (YStr s) l -> exists v, gw_host std_dom dfa (YStr s) = Some (Some v).
Proof using CO C0.
  intros hl B. induction l as [|z l IH]; intros a o Hl Ha E.
  - cbn [fold_left] in E. injection E as <-. split; auto. split; [intros x; split; [auto|intros [H|(s & v & [] & _)]; exact H]|]. split; [intros [H|H]; congruence|intros s []].
  - cbn [fold_left] in E. destruct (Hl z (or_introl eq_refl)) as (Hz & s & -> & U). unfold sni_step at 2 in E. cbn [bind] in E.
    destruct (gw_host std_dom dfa (YStr s)) as [os|] eqn:Es.
    2:{ exfalso. clear - E. cbn [bind] in E. induction l as [|y l IH]; [discriminate|]. cbn [fold_left] in E. exact (IH E). }
    cbn [bind] in E. destruct (gw_host_spec code dfa CO C0 s _ Es (B s Hz)) as [(_ & v & -> & Hv & _)|[N _]]; [|tauto].
    assert (X : exists a1, (match a with Some u => Some (Some (if vbool O u then vor O u v else v)) | None => Some (Some v) end) = Some (Some a1) /\ host_set a1 /\ forall x, val_mem x a1 <-> some_mem x a \/ val_mem x v).
    { destruct a as [u|].
      - cbn [opt] in Ha. unfold O. rewrite (hset_bool u Ha). destruct (hset_or u v Ha Hv) as [X1 X2]. eexists. split; [reflexivity|]. split; [exact X1|]. intros x. rewrite X2. unfold some_mem. split; intros [H|H]; auto; [left; eauto|left; destruct H as (w & Q & H); injection Q as <-; exact H].
      - exists v. split; auto. split; auto. intros x. unfold some_mem. split; [auto|intros [(w & Q & _)|H]; [discriminate|exact H]]. }
    destruct X as (a1 & E1 & H1 & M1). assert (E' : fold_left (sni_step std_dom dfa) l (Some (Some a1)) = Some o) by (rewrite <- E1; exact E).
    destruct (IH (Some a1) o (fun z H => Hl z (or_intror H)) H1 E') as (I1 & I2 & I3 & I4). split; auto. split; [|split; [intros _; apply I3; right; discriminate|intros s' [Q|Hs]; [injection Q as <-; eauto|exact (I4 s' Hs)]]].
    intros x. rewrite I2. unfold some_mem at 1. split.
    + intros [(w & Q & H)|(s' & v' & X1 & X2)]; [injection Q as <-; apply M1 in H as [H|H]; [auto|right; exists s, v; split; [left; reflexivity|auto]]|right; exists s', v'; split; [right; exact X1|exact X2]].
    + intros [H|(s' & v' & [Q|X1] & X2 & X3)]; [left; exists a1; split; auto; apply M1; auto|injection Q as <-; rewrite Es in X2; injection X2 as <-; left; exists a1; split; auto; apply M1; auto|right; exists s', v'; auto].
Qed.
Lemma tls_matches_spec : forall ns hl hosts, vs_hosts_of std_dom dfa hl = Some hosts -> hosts_benign code dfa hl -> forall ys o, tls_matches std_dom dfa ns hosts route0 ys = Some o ->
  (forall y, In y ys -> sni_benign hl y) -> exists r, o = Some r /\ tls_state ns ys r.
Proof using CO C0.
  intros ns hl hosts Eh B ys o E Bs. destruct (vs_hosts_spec hl hosts Eh B) as (VM & VH & _).
  assert (G : forall t d r0, (forall y, In y t -> sni_benign hl y) -> (forall y, In y d -> sni_benign hl y) -> tls_state ns d r0 -> tls_matches std_dom dfa ns hosts r0 t = Some o -> exists r, o = Some r /\ tls_state ns (d ++ t) r).
  { induction t as [|y t IH]; intros d r0 It Id S Ef; cbn [tls_matches] in Ef.
    - injection Ef as <-. exists r0. rewrite app_nil_r. auto.
    - destruct (tls_match std_dom dfa ns hosts r0 y) as [o1|] eqn:E1; [|discriminate]. cbn [bind] in Ef.
      assert (S1 : exists r1, o1 = Some r1 /\ tls_state ns (d ++ [y]) r1).
      { clear IH Ef. destruct (It y (or_introl eq_refl)) as [Nl Hl]. unfold tls_match in E1.
        match type of E1 with bind ?e _ = _ => destruct e as [m|] eqn:Em; [|discriminate] end. cbn [bind] in E1. apply check_fields_map in Em as [-> _]. cbn [sni_list] in Nl, Hl.
        match type of E1 with bind ?e _ = _ => destruct e as [sni|] eqn:Es; [|discriminate] end. cbn [bind] in E1.
        destruct (all_hosts std_dom hosts) as [h|] eqn:Eah; [|discriminate]. cbn [bind] in E1. destruct S as (Si & So & Sx & Sg & Sz & Sn & Sv).
        destruct (sni_steps hl B _ _ _ Hl So Es) as (N1 & N2 & N3 & N4). destruct sni as [s|]; [|exfalso; exact (N3 (or_introl Nl) eq_refl)]. cbn [bind opt] in *.
        destruct (all_hosts_spec hosts h Eah VH) as [Hh Mh].
        assert (Mx : forall x, some_mem x (Some s) <-> exists y s v, In y (d ++ [YMap m]) /\ In (YStr s) (sni_list y) /\ gw_host std_dom dfa (YStr s) = Some (Some v) /\ val_mem x v).
        { intros x. rewrite N2, Sx. split.
          - intros [(y & s' & v & H1 & H2)|(s' & v & H1 & H2)]; [exists y, s', v; split; [apply in_or_app; auto|exact H2]|exists (YMap m), s', v; split; [apply in_or_app; right; left; reflexivity|split; [exact H1|exact H2]]].
          - intros (y & s' & v & H1 & H2 & H3). apply in_app_or in H1 as [H1|[<-|[]]]; [left; exists y, s', v; auto|right; exists s', v; auto]. }
        assert (Ct : vcont (val_ops std_dom) s h = true).
        { apply (L_cont _ _ _ std_vals 6); [apply N1|apply Hh|]. intros x Hx. apply Mh. assert (Xs : some_mem x (Some s)) by (exists s; auto). apply Mx in Xs as (y & s' & v & H1 & H2 & H3 & H4).
          assert (By : sni_benign hl y) by (apply in_app_or in H1 as [H1|[<-|[]]]; [apply Id; exact H1|apply It; left; reflexivity]). destruct By as [_ By]. destruct (By _ H2) as (Hz & s2 & Q & U). injection Q as <-.
          exists v. split; auto. apply VM. exists s'. auto. }
        rewrite Ct in E1. cbn [negb] in E1. destruct (vs_gateway_names ns m false (rt_gateways r0)) as [gws|] eqn:Eg; [|discriminate]. cbn [bind] in E1. injection E1 as <-.
        eexists. split; [reflexivity|]. unfold tls_state. cbn [rt_internal rt_dests rt_sni rt_uri rt_methods rt_gateways]. split; [exact Si|]. split; [exact N1|]. split; [exact Mx|].
        destruct (gateway_names_spec _ _ _ _ _ Eg) as [G1 G2]. split.
        - intros n. rewrite G1, Sg, app_In1. cbn [item_gateways]. split; [intros [H|[H|(_ & H & _)]]; auto; discriminate|intros [H|H]; auto].
        - split; [rewrite G2, Sz, app_all1; cbn [item_gateways]; tauto|]. split; [discriminate|]. intros y s' Hy. apply in_app_or in Hy as [Hy|[<-|[]]]; [apply Sv; exact Hy|apply N4]. }
      destruct S1 as (r1 & -> & S1). replace (d ++ y :: t) with ((d ++ [y]) ++ t) by (rewrite <- app_assoc; reflexivity). apply (IH _ r1); auto; [intros z Hz; apply It; right; exact Hz|].
      intros z Hz. apply in_app_or in Hz as [Hz|[<-|[]]]; [auto|apply It; left; reflexivity]. }
  apply (G ys [] route0); auto; [intros y []|]. unfold tls_state. cbn [rt_internal rt_dests rt_sni rt_uri rt_methods rt_gateways route0 opt]. split; [auto|]. split; [exact I|].
  split; [intros x; split; [intros (v & Q & _); discriminate|intros (y & s & v & [] & _)]|]. split; [intros n; split; [intros []|intros (y & [] & _)]|]. split; [split; [intros _ y []|reflexivity]|]. split; [congruence|intros y s []].
Qed.
(** What a tls route takes: the name of a gateway and a host. *)
Definition tls_takes (ns : string) (sp : dict) (ys : list yaml) (n : string) (h : word) : Prop := exists y, In y ys /\ item_bound ns sp y n /\ hosts_say (sni_list y) h.
Definition tls_whole (ns : string) (sp : dict) (ys : list yaml) : Prop := all_or_none own_gateways ys /\
  forall a c, In a ys -> In c ys -> exists d, In d ys /\ (forall h, hosts_say (sni_list a) h -> hosts_say (sni_list d) h) /\ forall n, item_bound ns sp c n -> item_bound ns sp d n.
Lemma tls_request : forall ns sp hl ys r gws, hosts_benign code dfa hl -> (forall y, In y ys -> sni_benign hl y) -> ys <> [] -> tls_state ns ys r -> tls_whole ns sp ys -> (forall n, In n gws <-> vs_bound ns sp n) ->
  forall n h, fair_for hl h -> (In n (names_of gws (rt_gateways r)) /\ opt (val_mem (code h)) (rt_sni r) <-> tls_takes ns sp ys n h).
Proof using CO C0.
  intros ns sp hl ys r gws B Bs NE (_ & _ & Sx & Sg & Sz & Sn & Sv) [Ag Rc] G n h Fh. unfold names_of. rewrite (names_item ns sp gws (rt_gateways r) ys NE Ag G Sg Sz n).
  assert (Xs : opt (val_mem (code h)) (rt_sni r) <-> exists y, In y ys /\ hosts_say (sni_list y) h).
  { transitivity (some_mem (code h) (rt_sni r)).
    - unfold some_mem. destruct (rt_sni r) as [v|] eqn:Er; cbn [opt]; [split; [eauto|intros (u & Q & H); injection Q as <-; exact H]|]. destruct (Sn NE eq_refl).
    - rewrite Sx. unfold hosts_say. assert (X : forall y s v, In y ys -> In (YStr s) (sni_list y) -> gw_host std_dom dfa (YStr s) = Some (Some v) -> unscoped s /\ (val_mem (code h) v <-> host_matches s h)).
      { intros y s v H1 H2 H3. destruct (proj2 (Bs y H1) _ H2) as (Hz & s' & Q & U). injection Q as <-. split; auto.
        destruct (gw_host_spec code dfa CO C0 s _ H3 (B s Hz)) as [(_ & v' & Q & _ & Mv)|[N _]]; [|tauto]. injection Q as <-. apply Mv. exact (fair_one hl s h Fh Hz). }
      split.
      + intros (y & s & v & H1 & H2 & H3 & H4). destruct (X y s v H1 H2 H3) as [U M]. exists y. split; auto. exists s. split; auto. split; auto. apply M. exact H4.
      + intros (y & H1 & s & H2 & U & M). destruct (Sv y s H1 H2) as [v Ev]. exists y, s, v. split; auto. split; auto. split; auto. apply (X y s v H1 H2 Ev). exact M. }
  rewrite Xs. unfold tls_takes. split.
  - intros ((c & Hc & Bc) & (a & Ha & Ta)). destruct (Rc a c Ha Hc) as (d & Hd & D1 & D2). exists d. auto.
  - intros (y & Hy & H1 & H2). split; exists y; auto.
Qed.
End Matches.
