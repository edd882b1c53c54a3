(** * A concrete Ingress: the theorems of PropIngress.v and PropIngressLayer.v apply to it; and documents for which C60 fails without its
    conditions. *)
From Coq Require Import ZArith List Bool Arith Lia String Ascii.
From Verif Require Import IntervalModel IntervalFacts HyperModel HyperFacts HyperOps HyperDims HyperTop HyperInst PropHyperCube ConnModel ConnFacts TextModel PortProtoModel
                          PeerModel PeerFacts PeerSetFacts PolicyModel PolicyLaws PolicyFacts LayerFacts OrderFacts ConnAlg StdDims PropLayers YamlModel ClusterModel ConnDict
                          SelectorFacts PropSelectors K8sParserModel K8sParserFacts PropK8sParser CalicoSelectorModel CalicoParserModel PropCalicoCases PropIstioCases IstioValueModel PropIstioValues IstioRuleFacts IstioParserModel PropIstioParser
                          ServiceModel PropServices PropSidecarCases IngressModel IngressWords PropIngressPaths GatewayFacts IngressFacts IngressDocs PropIngress PropIngressLayer.
Import ListNotations.
Local Open Scope string_scope.
Local Open Scope list_scope.
Local Open Scope nat_scope.

(** ** The documents *)
Definition ing (ns : string) (sp : dict) : yaml :=
  YMap [("apiVersion", YStr "networking.k8s.io/v1"); ("kind", YStr "Ingress"); ("metadata", YMap [("name", YStr "i"); ("namespace", YStr ns)]); ("spec", YMap sp)].
Definition back (s : string) (n : Z) : yaml := YMap [("service", YMap [("name", YStr s); ("port", YMap [("number", YInt n)])])].
Definition entry (p ty : string) (b : yaml) : yaml := YMap [("path", YStr p); ("pathType", YStr ty); ("backend", b)].
Definition irule (h : string) (es : list yaml) : yaml := YMap [("host", YStr h); ("http", YMap [("paths", YList es)])].
(** The pod of the namespace other is the ingress controller. *)
Definition svc_nginx := svc "ingress-nginx-controller" "other" "web" [("port", YInt 80); ("targetPort", YInt 8080)].
Definition iks : list k8s_service := flat_map (fun y => match parse_service y with Some (Some s) => [s] | _ => [] end) [svc_web; svc_db; svc_nginx].
Definition isvcs : list service := [Service "web" "ns" [pa]; Service "db" "ns" [pb]; Service "ingress-nginx-controller" "other" [pc]].
Example iservices : set_services ex_cl iks = Some isvcs.
Proof. vm_compute. reflexivity. Qed.
Definition r1 := irule "h.com" [entry "/foo" "Prefix" (back "web" 80)].
Definition r2 := irule "*.org" [entry "/bar" "Exact" (back "db" 5432)].
Definition idoc := ing "ns" [("defaultBackend", back "db" 5432); ("rules", YList [r1; r2])].
Definition wild (w : word) : bool := let n := List.length w - 4 in (if list_eq_dec ascii_dec (skipn n w) (text ".org") then true else false) && forallb word_char (firstn n w).
Definition gcode (w : word) : Z :=
  match w with [] => 0 | _ => if list_eq_dec ascii_dec w (text "h.com") then 1 else if wild w then 2 else if below "/foo" w then 3 else if list_eq_dec ascii_dec w (text "/bar") then 4 else 5 end%Z.
Definition gdfa (t : list ascii) : val :=
  if list_eq_dec ascii_dec t (text "h[.]com") then VN false [Ivl 1 1]%Z
  else if list_eq_dec ascii_dec t (text "[\w]*[.]org") then VN false [Ivl 2 2]%Z
  else if list_eq_dec ascii_dec t (prefix_regex (text "/foo")) then VN false [Ivl 3 3]%Z
  else if list_eq_dec ascii_dec t (text "/bar") then VN false [Ivl 4 4]%Z else VN false [].
Definition gparse := ingress_policy std_dom ex_reg ex_cl iks isvcs gdfa.
Definition pol_of (y : yaml) : policy := match gparse y with Some (Some p) => p | _ => Policy "" "" TIngress false false [] [] [] None Allow end.
Example iparse : gparse idoc = Some (Some (pol_of idoc)) /\ p_selected (pol_of idoc) = [pc].
Proof. vm_compute. split; reflexivity. Qed.
(** Deciding whether some rule matches. *)
Definition matched (P : policy) (pt : dim -> Z) : bool := existsb (fun r => PropQueryCases.inside pt (r_props r)) (p_egress P).
Lemma matched_spec : forall P pt, matched P pt = true <-> some_rule (p_egress P) pt.
Proof. intros P pt. unfold matched, some_rule. rewrite existsb_exists. split; intros (r & H & M); exists r; (split; [exact H|]); apply PropQueryCases.inside_spec; exact M. Qed.
(** A request: a connection of the ingress controller. *)
Definition req (x : peer) (port : Z) (h w : string) : dim -> Z := hconn (idx pc) (idx x) 6 port 0 (gcode (text h)) (gcode (text w)).

(** ** The words *)
Lemma gcode_ok : code_ok gcode.
Proof. intros w H. unfold gcode. destruct w as [|c w]; [congruence|]. repeat (match goal with |- (if ?b then _ else _) <> _ => destruct b; [discriminate|] end). discriminate. Qed.
Lemma wild_spec : forall w, wild w = true <-> exists x, w = x ++ text ".org" /\ Forall (fun c => word_char c = true) x.
Proof.
  intros w. unfold wild. split.
  - intros H. apply andb_true_iff in H as [H1 H2]. destruct (list_eq_dec ascii_dec _ _) as [E|]; [|discriminate]. exists (firstn (List.length w - 4) w). split; [rewrite <- E; symmetry; apply firstn_skipn|].
    apply Forall_forall. exact (proj1 (forallb_forall _ _) H2).
  - intros (x & -> & H). rewrite app_length. change (List.length (text ".org")) with 4. replace (List.length x + 4 - 4) with (List.length x) by lia.
    rewrite skipn_app, firstn_app, Nat.sub_diag, skipn_all, firstn_all. cbn [skipn firstn app]. rewrite app_nil_r. destruct (list_eq_dec ascii_dec (text ".org") (text ".org")) as [_|N]; [|destruct N; reflexivity]. cbn [andb].
    apply forallb_forall. exact (proj1 (Forall_forall _ _) H).
Qed.
Lemma valid6 : forall a b, (a <= b)%Z -> val_valid std_dom 6 (VN false [Ivl a b]).
Proof. exact small_valid. Qed.
Lemma one_code : forall a z, val_mem z (VN false [Ivl a a]) <-> z = a.
Proof. intros a z. cbn [val_mem]. rewrite mem_cons, mem_nil. cbn [lo hi]. lia. Qed.
Lemma code1 : forall w, gcode w = 1%Z <-> w = text "h.com".
Proof.
  intros w. unfold gcode. destruct w as [|c w]; [split; discriminate|]. destruct (list_eq_dec ascii_dec (c :: w) (text "h.com")) as [E|E]; [rewrite E; tauto|].
  repeat (match goal with |- (if ?b then _ else _) = _ <-> _ => destruct b; [split; [discriminate|intros X; destruct (E X)]|] end). split; [discriminate|intros X; destruct (E X)].
Qed.
Lemma code2 : forall w, gcode w = 2%Z <-> wild w = true.
Proof.
  intros w. unfold gcode. destruct w as [|c w]; [split; discriminate|]. destruct (list_eq_dec ascii_dec (c :: w) (text "h.com")) as [E|E]; [rewrite E; split; discriminate|].
  destruct (wild (c :: w)); [tauto|]. repeat (match goal with |- (if ?b then _ else _) = _ <-> _ => destruct b; [split; discriminate|] end). split; discriminate.
Qed.
Lemma path_code : forall t, gcode ("/"%char :: t) = (if below "/foo" ("/"%char :: t) then 3 else if list_eq_dec ascii_dec ("/"%char :: t) (text "/bar") then 4 else 5)%Z.
Proof.
  intros t. unfold gcode. destruct (list_eq_dec ascii_dec ("/"%char :: t) (text "h.com")) as [E|_]; [discriminate|]. destruct (wild ("/"%char :: t)) eqn:Ew; [|reflexivity].
  apply wild_spec in Ew as ([|c x] & E & H); [discriminate|]. injection E as <- _. inversion H as [|? ? X _]. discriminate X.
Qed.
Lemma read1 : forall t, host_regex "h.com" = Some t -> reads gcode gdfa 6 t.
Proof.
  intros t Et. destruct (host_exact "h.com" t Et) as (r & Er & M); [repeat (apply Forall_cons; [reflexivity|]); apply Forall_nil|]. vm_compute in Et. injection Et as <-.
  split; [apply valid6; lia|]. intros r' w _ Er'. rewrite Er in Er'. injection Er' as <-. rewrite M. refine (iff_trans (one_code 1 _) (code1 w)).
Qed.
Lemma read2 : forall t, host_regex "*.org" = Some t -> reads gcode gdfa 6 t.
Proof.
  intros t Et. destruct (host_wildcard "*.org" t (text ".org") Et eq_refl) as (r & Er & M); [repeat (apply Forall_cons; [reflexivity|]); apply Forall_nil|]. vm_compute in Et. injection Et as <-.
  split; [apply valid6; lia|]. intros r' w _ Er'. rewrite Er in Er'. injection Er' as <-. rewrite M, <- wild_spec. refine (iff_trans (one_code 2 _) (code2 w)).
Qed.
Lemma read3 : reads gcode gdfa 7 (prefix_regex (text "/foo")).
Proof.
  apply (prefix_reads "/foo" gcode gdfa 3 3); try reflexivity; try lia. intros w [_ Hw]. destruct (Hw eq_refl) as (t & ->). rewrite path_code.
  destruct (below "/foo" ("/"%char :: t)); [split; [reflexivity|lia]|]. destruct (list_eq_dec ascii_dec ("/"%char :: t) (text "/bar")); split; try lia; discriminate.
Qed.
Lemma read4 : reads gcode gdfa 7 (text "/bar").
Proof.
  split; [apply small_valid; lia|]. intros r w [_ Hw] Er. destruct (exact_language (text "/bar") (text_plain "/bar" eq_refl)) as (r' & Er' & L). rewrite Er in Er'. injection Er' as <-. rewrite L.
  destruct (Hw eq_refl) as (t & ->). change (gdfa (text "/bar")) with (VN false [Ivl 4 4]%Z). rewrite one_code, path_code.
  destruct (below "/foo" ("/"%char :: t)) eqn:B.
  - split; [discriminate|]. intros E. rewrite E in B. vm_compute in B. discriminate.
  - destruct (list_eq_dec ascii_dec ("/"%char :: t) (text "/bar")) as [E|E]; [tauto|]. split; [discriminate|intros X; destruct (E X)].
Qed.

(** ** C60 for this document *)
Definition web_port : sport := SPort (Some "") (YStr "TCP") (YStr "http") (YInt 80).
Definition db_port : sport := SPort (Some "") (YStr "TCP") (YInt 5432) (YInt 5432).
Lemma back_web : backend ex_cl iks "ns" (back "web" 80) [pa] web_port.
Proof.
  eexists _, _, _, _, _. split; [reflexivity|]. split; [reflexivity|]. split; [reflexivity|]. split; [reflexivity|]. split; [reflexivity|].
  split; [exists []; eexists; split; [vm_compute; reflexivity|]; intros s' [<-|[<-|[]]] [E _]; discriminate|].
  split; [reflexivity|]. split; [reflexivity|]. split; [vm_compute; reflexivity|]. exists [], []. split; [reflexivity|]. split; [|intros q []]. right. split; [discriminate|]. exists 80%Z. split; reflexivity.
Qed.
Lemma back_db : backend ex_cl iks "ns" (back "db" 5432) [pb] db_port.
Proof.
  eexists _, _, _, _, _. split; [reflexivity|]. split; [reflexivity|]. split; [reflexivity|]. split; [reflexivity|]. split; [reflexivity|].
  split; [eexists [_]; eexists; split; [vm_compute; reflexivity|]; intros s' [<-|[]] [E _]; discriminate|].
  split; [reflexivity|]. split; [reflexivity|]. split; [vm_compute; reflexivity|]. exists [], []. split; [reflexivity|]. split; [|intros q []]. right. split; [discriminate|]. exists 5432%Z. split; reflexivity.
Qed.
Lemma doc_is : forall sp l, yget sp "rules" = YList l -> ingress_doc (ing "ns" sp) "i" "ns" (yget sp "defaultBackend") l.
Proof. intros sp l E. eexists _, _, _. repeat (split; [reflexivity|]). split; [left; split; [reflexivity|discriminate]|]. split; [reflexivity|]. split; [reflexivity|]. left. exact E. Qed.
Lemma host_of : forall h es, rule_host (irule h es) (YStr h).
Proof. intros. eexists. split; reflexivity. Qed.
Lemma paths_of : forall h es, rule_paths (irule h es) es.
Proof. intros. eexists _, _. split; [reflexivity|]. split; [reflexivity|]. right. reflexivity. Qed.
Lemma entry_of : forall p ty b, path_of (entry p ty b) (text p) ty b.
Proof. intros. eexists _, _. repeat (split; [reflexivity|]). reflexivity. Qed.
Lemma entry_fn : forall p ty b p' ty' b', path_of (entry p ty b) p' ty' b' -> p' = text p /\ ty' = ty /\ b' = b.
Proof. intros p ty b p' ty' b' H. destruct (path_of_fn _ _ _ _ _ _ _ (entry_of p ty b) H) as (<- & <- & <-). auto. Qed.
Lemma has_no_dot : forall s, existsb (Ascii.eqb "."%char) s = false -> ~ In "."%char s.
Proof. intros s H I. assert (X : existsb (Ascii.eqb "."%char) s = true) by (apply existsb_exists; exists "."%char; auto). congruence. Qed.
Lemma e_foo : entry_benign ex_cl iks gcode gdfa "ns" (entry "/foo" "Prefix" (back "web" 80)).
Proof.
  exists (text "/foo"), "Prefix", (back "web" 80), [pa], web_port. split; [apply entry_of|]. split; [exact back_web|]. split; [discriminate|]. split; [intros n E; discriminate|].
  split; [apply has_no_dot; reflexivity|]. right. split; [left; reflexivity|]. split; [reflexivity|]. right. exact read3.
Qed.
Lemma db_good : target_good db_port.
Proof. intros n E. injection E as <-. lia. Qed.
Lemma e_bar : entry_benign ex_cl iks gcode gdfa "ns" (entry "/bar" "Exact" (back "db" 5432)).
Proof.
  exists (text "/bar"), "Exact", (back "db" 5432), [pb], db_port. split; [apply entry_of|]. split; [exact back_db|]. split; [discriminate|]. split; [exact db_good|].
  split; [apply has_no_dot; reflexivity|]. left. split; [reflexivity|]. exact read4.
Qed.
Lemma one_benign : forall e, entry_benign ex_cl iks gcode gdfa "ns" e -> paths_benign ex_cl iks gcode gdfa "ns" [e].
Proof.
  intros e B. split; [intros e' [<-|[]]; exact B|]. intros i j e1 e2 p ty b p' ty' b' Hi Hj _ _ _ _ _. destruct i as [|[|i]], j as [|[|j]]; try discriminate; reflexivity.
Qed.
Lemma host1 : host_benign gcode gdfa (YStr "h.com").
Proof. right. exists "h.com". split; [reflexivity|]. right. split; [discriminate|]. split; [left; repeat (apply Forall_cons; [reflexivity|]); apply Forall_nil|exact read1]. Qed.
Lemma host2 : host_benign gcode gdfa (YStr "*.org").
Proof. right. exists "*.org". split; [reflexivity|]. right. split; [discriminate|]. split; [right; exists (text ".org"); split; [reflexivity|]; repeat (apply Forall_cons; [reflexivity|]); apply Forall_nil|exact read2]. Qed.
Lemma rule_is_benign : forall d h e, host_benign gcode gdfa (YStr h) -> entry_benign ex_cl iks gcode gdfa "ns" e -> h <> "*" ->
  (forall p ty b, path_of e p ty b -> ty <> "Exact" -> path_elements p <> [[]]) -> rule_benign ex_cl iks gcode gdfa "ns" d (irule h [e]).
Proof.
  intros d h e Bh Be Nh Pe hv es Rh Rp. rewrite (host_fn _ _ _ Rh (host_of h [e])), (paths_fn _ _ _ Rp (paths_of h [e])). split; [exact Bh|]. split; [apply one_benign; exact Be|].
  intros _. split; [discriminate|]. split; [congruence|]. intros e' p ty b [<-|[]]. apply Pe.
Qed.
Example ex_ibenign : ingress_benign ex_cl iks gcode gdfa "ns" (back "db" 5432) [r1; r2].
Proof.
  split.
  - intros y [<-|[<-|[]]]; [apply (rule_is_benign _ "h.com"); [exact host1|exact e_foo|discriminate|]|apply (rule_is_benign _ "*.org"); [exact host2|exact e_bar|discriminate|]].
    + intros p ty b H _. apply entry_fn in H as (-> & _). discriminate.
    + intros p ty b H N. apply entry_fn in H as (_ & -> & _). congruence.
  - intros pods p H _. destruct (backend_fn _ _ _ _ _ _ _ _ H back_db) as [_ ->]. exact db_good.
Qed.
Definition spec_idoc := ingress_serves ex_cl iks "ns" (back "db" 5432) [r1; r2].
Example ex_C60 : forall pt h w, a_space std_dom pt -> words_at gcode pt h w -> h <> [] -> (forall x hv, In x [r1; r2] -> rule_host x hv -> fair hv h) ->
  (some_rule (p_egress (pol_of idoc)) pt <-> pt_in (a_src ex_reg pt) [pc] /\ pt 2 = 6%Z /\ spec_idoc h w (a_dst ex_reg pt) (pt 4)).
Proof.
  intros pt h w Sp Wd Nh Fh. destruct iparse as [E Es].
  destruct (C60_ingress_policy ex_reg ex_reg_ok ex_cl ex_cl_ok ex_cl_container ex_cl_ports iks isvcs iservices gcode gdfa gcode_ok idoc _ E) as (name & ns & d & rules & D & _ & _ & _ & _ & _ & _ & _ & _ & X).
  destruct (ingress_doc_fn _ _ _ _ _ _ _ _ _ (doc_is [("defaultBackend", back "db" 5432); ("rules", YList [r1; r2])] [r1; r2] eq_refl) D) as (-> & -> & -> & ->).
  destruct (X ex_ibenign) as (_ & _ & _ & M). rewrite <- Es. exact (M pt h w Sp Wd Nh Fh).
Qed.
(** Requests and where they may go. *)
Ltac rspace := unfold req; hspace.
Example ex_req_space : a_space std_dom (req pa 8080 "h.com" "/foo").
Proof. rspace. Qed.
Example ex_requests :
  map (fun r => matched (pol_of idoc) r)
    [req pa 8080 "h.com" "/foo"; req pa 8080 "h.com" "/foo/x"; req pb 5432 "h.com" "/foo"; req pa 8080 "h.com" "/bar"; req pb 5432 "h.com" "/bar"; req pb 5432 "a.org" "/bar"; req pb 5432 "a.org" "/foo";
     req pb 5432 "net" "/foo"; req pa 8080 "net" "/foo"; req pa 80 "h.com" "/foo"; req pb 80 "net" "/"] =
  [true; true; false; false; true; true; true; true; false; false; false].
Proof. vm_compute. reflexivity. Qed.
Lemma serves_by : forall b pods p x n, backend ex_cl iks "ns" b pods p -> serves ex_cl iks "ns" b x n -> pt_in x pods /\ port_at ex_cl x p n.
Proof. intros b pods p x n B (pods' & p' & B' & H1 & H2). destruct (backend_fn _ _ _ _ _ _ _ _ B B') as [-> ->]. auto. Qed.
Lemma no_backend : forall b x n, (forall bm, b = YMap bm -> ytrue (yget bm "resource") = true) -> ~ serves ex_cl iks "ns" b x n.
Proof. intros b x n H (pods & p & (bm & sm & nm & pm & k & E & Er & _) & _). rewrite (H bm E) in Er. discriminate. Qed.
Definition PA := PN 0 "ns/a".
Definition PB := PN 0 "ns/b".
Example ex_points : map (fun x => a_dst ex_reg (req x 1 "h.com" "/")) [pa; pb] = [PA; PB].
Proof. vm_compute. reflexivity. Qed.
Lemma not_web : forall n, ~ serves ex_cl iks "ns" (back "web" 80) PB n.
Proof. intros n H. destruct (serves_by _ _ _ _ _ back_web H) as [X _]. vm_compute in X. destruct X as [X|[]]. discriminate. Qed.
Lemma plain_fair : forall s h, ~ In "*"%char (text s) -> fair (YStr s) h.
Proof. intros s h H s' p x E _ Et _. injection E as <-. exfalso. apply H. rewrite Et. left. reflexivity. Qed.
Lemma word7 : forall s, forallb alphabet (text s) = true -> (exists t, text s = "/"%char :: t) -> domain_word 7 (text s).
Proof. intros s H St. split; [apply Forall_forall; exact (proj1 (forallb_forall _ _) H)|intros _; exact St]. Qed.
Lemma req_words : forall x n h w, forallb alphabet (text h) = true -> forallb alphabet (text w) = true -> (exists t, text w = "/"%char :: t) -> words_at gcode (req x n h w) (text h) (text w).
Proof.
  intros x n h w Hh Hw Sw. split; split; [reflexivity| |reflexivity|apply word7; assumption]. split; [apply Forall_forall; exact (proj1 (forallb_forall _ _) Hh)|discriminate].
Qed.
Lemma ex_fair : forall x hv, In x [r1; r2] -> rule_host x hv -> fair hv (text "h.com").
Proof.
  intros x hv [<-|[<-|[]]] Rh.
  - rewrite (host_fn _ _ _ Rh (host_of _ _)). apply plain_fair. intros H. cbn in H. repeat (destruct H as [H|H]; [discriminate|]). exact H.
  - rewrite (host_fn _ _ _ Rh (host_of _ _)). intros s p x E _ Et E'. injection E as <-. cbn in Et. injection Et as <-. exfalso. destruct x as [|? [|? [|? [|? [|? x]]]]]; cbn in E'; try discriminate E'. destruct x; discriminate E'.
Qed.
(** The request for h.com/foo/x reaches the port http of the pod a, which is 8080, and nothing else does. *)
Example ex_served : spec_idoc (text "h.com") (text "/foo/x") PA 8080 /\ ~ spec_idoc (text "h.com") (text "/foo/x") PB 5432.
Proof.
  assert (T : forall x n, (1 <= n <= 65535)%Z -> mem (idx x) std_peers -> matched (pol_of idoc) (req x n "h.com" "/foo/x") = true <->
    pt_in (a_src ex_reg (req x n "h.com" "/foo/x")) [pc] /\ 6%Z = 6%Z /\ spec_idoc (text "h.com") (text "/foo/x") (a_dst ex_reg (req x n "h.com" "/foo/x")) n).
  { intros x n Hn Hx. rewrite matched_spec. apply ex_C60; [|apply req_words; [reflexivity|reflexivity|eexists; reflexivity]|discriminate|exact ex_fair].
    apply hconn_space; [apply peers_mem; vm_compute; reflexivity|exact Hx|lia|lia|lia]. }
  split.
  - assert (X : matched (pol_of idoc) (req pa 8080 "h.com" "/foo/x") = true) by (vm_compute; reflexivity). apply T in X; [|lia|apply peers_mem; vm_compute; reflexivity]. destruct X as (_ & _ & X). exact X.
  - intros H. assert (X : matched (pol_of idoc) (req pb 5432 "h.com" "/foo/x") = true); [|vm_compute in X; discriminate]. apply T; [lia|apply peers_mem; vm_compute; reflexivity|].
    split; [vm_compute; left; reflexivity|]. split; [reflexivity|exact H].
Qed.

(** ** C61 for this document *)
Example ex_C61 : forall pt h w, a_space std_dom pt -> words_at gcode pt h w -> h <> [] -> all_fair [idoc] h ->
  member (cl_peers ex_cl) (a_src ex_reg pt) -> ~ named_hep (a_src ex_reg pt) ->
  (member (cl_peers ex_cl) (a_dst ex_reg pt) /\ ~ named_hep (a_dst ex_reg pt) \/ is_addr (a_dst ex_reg pt) /\ ~ named_dns (a_src ex_reg pt)) ->
  (pt @ all_allowed (layer_conns (cube_ops std_dom std_all ex_reg) LK8sGateway (cl_peers ex_cl) [pol_of idoc] only_all_allowed) <->
   ([idoc] <> [] -> controller_at ex_cl iks (a_src ex_reg pt) -> pt 2 = 6%Z /\ some_serves ex_cl iks [idoc] h w (a_dst ex_reg pt) (pt 4))).
Proof.
  destruct iparse as [E _].
  refine (C61_gateway_layer ex_reg ex_reg_ok ex_cl ex_cl_ok ex_cl_container ex_cl_ports iks isvcs iservices gcode gdfa gcode_ok [idoc] [pol_of idoc] _ _ _ only_all_allowed eq_refl).
  - intros p [<-|[]]. exists idoc. split; [left; reflexivity|exact E].
  - intros y [<-|[]]. exists (pol_of idoc). split; [left; reflexivity|exact E].
  - intros y name ns d rules [<-|[]] D.
    destruct (ingress_doc_fn _ _ _ _ _ _ _ _ _ (doc_is [("defaultBackend", back "db" 5432); ("rules", YList [r1; r2])] [r1; r2] eq_refl) D) as (-> & -> & -> & ->). exact ex_ibenign.
Qed.
(** The controller is the pod c; it reaches a at 8080 with requests for h.com/foo, and not at 9090; others reach it at any port. *)
Definition glayer := all_allowed (layer_conns (cube_ops std_dom std_all ex_reg) LK8sGateway (cl_peers ex_cl) [pol_of idoc] only_all_allowed).
Example ex_gateway : map (fun pt => PropQueryCases.inside pt glayer)
   [req pa 8080 "h.com" "/foo"; req pa 9090 "h.com" "/foo"; hconn (idx pb) (idx pa) 6 9090 0 1 3; hconn (idx pc) (idx pa) 17 8080 0 1 3; hconn (idx pb) (idx hep) 6 80 0 1 3]%Z =
  [true; false; true; false; false].
Proof. vm_compute. reflexivity. Qed.
(** Host endpoints, which the policies of the K8s/Calico layer may well allow, cannot be reached any more (finding). *)
Example ex_C61_hep : ~ hconn (idx pb) (idx hep) 6 80 0 1 3 @ glayer.
Proof. apply PropQueryCases.inside_not. vm_compute. reflexivity. Qed.

(** ** Documents outside the conditions of C60 *)
Definition any_rule (es : list yaml) : yaml := YMap [("http", YMap [("paths", YList es)])].
Lemma any_host_of : forall es, rule_host (any_rule es) YNull.
Proof. intros. eexists. split; reflexivity. Qed.
Lemma any_paths_of : forall es, rule_paths (any_rule es) es.
Proof. intros. eexists _, _. split; [reflexivity|]. split; [reflexivity|]. right. reflexivity. Qed.
Lemma foo_covered : forall b, ecovers (entry "/foo" "Prefix" b) (text "/foo").
Proof. intros b. exists (text "/foo"), "Prefix", b. split; [apply entry_of|]. right. split; [discriminate|]. exists []. reflexivity. Qed.

(** A rule for all hosts and a default backend: the remaining hosts are empty, which is taken for all hosts, so the default backend gets the requests of
    the rule, too. *)
Definition leak := ing "ns" [("defaultBackend", back "db" 5432); ("rules", YList [any_rule [entry "/foo" "Prefix" (back "web" 80)]])].
Theorem C60_default_of_all_hosts_refuted : exists P, gparse leak = Some (Some P) /\ some_rule (p_egress P) (req pb 5432 "h.com" "/foo") /\
  ~ ingress_serves ex_cl iks "ns" (back "db" 5432) [any_rule [entry "/foo" "Prefix" (back "web" 80)]] (text "h.com") (text "/foo") PB 5432.
Proof.
  exists (pol_of leak). split; [vm_compute; reflexivity|]. split; [apply matched_spec; vm_compute; reflexivity|].
  intros [(y & [<-|[]] & hv & es & Rh & Rp & _ & H)|[N _]]; [|exact (N _ _ (or_introl eq_refl) (any_host_of _) (or_introl eq_refl))].
  rewrite (paths_fn _ _ _ Rp (any_paths_of _)) in H. destruct H as [(e & p & ty & b & [<-|[]] & _ & Pe & S)|[N _]]; [|exact (N _ (or_introl eq_refl) (foo_covered _))].
  apply entry_fn in Pe as (_ & _ & ->). exact (not_web _ S).
Qed.
(** The same with the Prefix path "/". *)
Definition leak2 := ing "ns" [("defaultBackend", back "db" 5432); ("rules", YList [irule "h.com" [entry "/" "Prefix" (back "web" 80)]])].
Theorem C60_default_of_all_paths_refuted : exists P, gparse leak2 = Some (Some P) /\ some_rule (p_egress P) (req pb 5432 "h.com" "/foo") /\
  ~ ingress_serves ex_cl iks "ns" (back "db" 5432) [irule "h.com" [entry "/" "Prefix" (back "web" 80)]] (text "h.com") (text "/foo") PB 5432.
Proof.
  exists (pol_of leak2). split; [vm_compute; reflexivity|]. split; [apply matched_spec; vm_compute; reflexivity|].
  intros [(y & [<-|[]] & hv & es & Rh & Rp & _ & H)|[N _]].
  - rewrite (paths_fn _ _ _ Rp (paths_of _ _)) in H. destruct H as [(e & p & ty & b & [<-|[]] & _ & Pe & S)|[N _]].
    + apply entry_fn in Pe as (_ & _ & ->). exact (not_web _ S).
    + apply (N _ (or_introl eq_refl)). exists (text "/"), "Prefix", (back "web" 80). split; [apply entry_of|]. right. split; [discriminate|]. exists [text "foo"]. reflexivity.
  - apply (N _ _ (or_introl eq_refl) (host_of _ _)). right. right. right. exists "h.com". split; [reflexivity|]. split; [|reflexivity]. intros H. cbn in H. repeat (destruct H as [H|H]; [discriminate|]). exact H.
Qed.
(** A backend that is not a service, without default backend: the requests are allowed to all ports of all peers; if it is not the first path, to the
    backend of the path before. *)
Definition res : yaml := YMap [("resource", YMap [("kind", YStr "StorageBucket")])].
Definition to_all := ing "ns" [("rules", YList [irule "h.com" [entry "/foo" "Prefix" res]])].
Lemma not_res : forall x n, ~ serves ex_cl iks "ns" res x n.
Proof. intros x n. apply no_backend. intros bm E. injection E as <-. reflexivity. Qed.
Lemma not_null : forall x n, ~ serves ex_cl iks "ns" YNull x n.
Proof. intros x n. apply no_backend. discriminate. Qed.
Theorem C60_resource_backend_refuted : exists P, gparse to_all = Some (Some P) /\ some_rule (p_egress P) (req pb 22 "h.com" "/foo") /\
  forall x n, ~ ingress_serves ex_cl iks "ns" YNull [irule "h.com" [entry "/foo" "Prefix" res]] (text "h.com") (text "/foo") x n.
Proof.
  exists (pol_of to_all). split; [vm_compute; reflexivity|]. split; [apply matched_spec; vm_compute; reflexivity|].
  intros x n [(y & [<-|[]] & hv & es & Rh & Rp & _ & H)|[_ S]]; [|exact (not_null _ _ S)].
  rewrite (paths_fn _ _ _ Rp (paths_of _ _)) in H. destruct H as [(e & p & ty & b & [<-|[]] & _ & Pe & S)|[_ S]]; [|exact (not_null _ _ S)].
  apply entry_fn in Pe as (_ & _ & ->). exact (not_res _ _ S).
Qed.
Definition to_previous := ing "ns" [("rules", YList [irule "h.com" [entry "/foo" "Prefix" (back "db" 5432); entry "/bar" "Exact" res]])].
Theorem C60_previous_backend_refuted : exists P, gparse to_previous = Some (Some P) /\ some_rule (p_egress P) (req pb 5432 "h.com" "/bar") /\
  ~ ingress_serves ex_cl iks "ns" YNull [irule "h.com" [entry "/foo" "Prefix" (back "db" 5432); entry "/bar" "Exact" res]] (text "h.com") (text "/bar") PB 5432.
Proof.
  exists (pol_of to_previous). split; [vm_compute; reflexivity|]. split; [apply matched_spec; vm_compute; reflexivity|].
  intros [(y & [<-|[]] & hv & es & Rh & Rp & _ & H)|[_ S]]; [|exact (not_null _ _ S)].
  rewrite (paths_fn _ _ _ Rp (paths_of _ _)) in H. destruct H as [(e & p & ty & b & [<-|[<-|[]]] & [C _] & Pe & S)|[_ S]]; [| |exact (not_null _ _ S)].
  - destruct C as (p' & ty' & b' & Pe' & C). apply entry_fn in Pe' as (-> & -> & _). destruct C as [[C _]|[_ (r & C)]]; discriminate.
  - apply entry_fn in Pe as (_ & _ & ->). exact (not_res _ _ S).
Qed.
(** A wildcard does not stand for labels with a hyphen. *)
Definition hyphen := ing "ns" [("rules", YList [irule "*.org" [entry "/foo" "Prefix" (back "web" 80)]])].
Theorem C60_wildcard_label_refuted : exists P, gparse hyphen = Some (Some P) /\ ~ some_rule (p_egress P) (req pa 8080 "a-b.org" "/foo") /\
  ingress_serves ex_cl iks "ns" YNull [irule "*.org" [entry "/foo" "Prefix" (back "web" 80)]] (text "a-b.org") (text "/foo") PA 8080.
Proof.
  exists (pol_of hyphen). split; [vm_compute; reflexivity|]. split; [rewrite <- matched_spec; vm_compute; discriminate|].
  left. eexists. split; [left; reflexivity|]. exists (YStr "*.org"). eexists. split; [apply host_of|]. split; [apply paths_of|]. split.
  - right. right. left. exists "*.org", (text ".org"), (text "a-b"). split; [reflexivity|]. split; [reflexivity|]. split; [reflexivity|]. split; [discriminate|]. apply has_no_dot. reflexivity.
  - left. exists (entry "/foo" "Prefix" (back "web" 80)), (text "/foo"), "Prefix", (back "web" 80). split; [left; reflexivity|]. split; [split; [apply foo_covered|]|split; [apply entry_of|]].
    + intros e' [<-|[]] _ (p & ty & b & p' & ty' & b' & P1 & P2 & _ & X). apply entry_fn in P1 as (-> & _), P2 as (-> & -> & _). destruct X as [X|X]; [discriminate|]. lia.
    + exists [pa], web_port. split; [exact back_web|]. split; [vm_compute; left; reflexivity|]. right. exists "http", 6%Z. split; [reflexivity|]. split; [lia|]. exists 0, "ns/a". split; vm_compute; reflexivity.
Qed.
(** A rule for a host does not take the place of a rule for all hosts: with both, requests for h.com/foo may go to both backends; in Kubernetes they go to the
    first one only. *)
Definition both : list yaml := [irule "h.com" [entry "/foo" "Prefix" (back "web" 80)]; any_rule [entry "/" "Prefix" (back "db" 5432)]].
Definition overlap := ing "ns" [("rules", YList both)].
Lemma h_com : host_is (YStr "h.com") (text "h.com").
Proof. right. right. right. exists "h.com". split; [reflexivity|]. split; [|reflexivity]. intros H. cbn in H. repeat (destruct H as [H|H]; [discriminate|]). exact H. Qed.
Theorem C60_host_precedence_refuted : exists P, gparse overlap = Some (Some P) /\ ingress_benign ex_cl iks gcode gdfa "ns" YNull both /\ some_rule (p_egress P) (req pb 5432 "h.com" "/foo") /\
  ~ kubernetes_serves ex_cl iks "ns" YNull both (text "h.com") (text "/foo") PB 5432.
Proof.
  exists (pol_of overlap). split; [vm_compute; reflexivity|].
  assert (ND : ~ has_default ex_cl iks "ns" YNull) by (intros (pods & p & (bm & sm & nm & pm & k & E & _) & _); discriminate).
  split.
  { split; [|intros pods p H; destruct H as (bm & sm & nm & pm & k & E & _); discriminate].
    intros y [<-|[<-|[]]] hv es Rh Rp.
    - rewrite (host_fn _ _ _ Rh (host_of _ _)), (paths_fn _ _ _ Rp (paths_of _ _)). split; [exact host1|]. split; [apply one_benign; exact e_foo|]. intros X. destruct (ND X).
    - rewrite (host_fn _ _ _ Rh (any_host_of _)), (paths_fn _ _ _ Rp (any_paths_of _)). split; [left; reflexivity|]. split; [apply one_benign|intros X; destruct (ND X)].
      exists (text "/"), "Prefix", (back "db" 5432), [pb], db_port. split; [apply entry_of|]. split; [exact back_db|]. split; [discriminate|]. split; [exact db_good|].
      split; [apply has_no_dot; reflexivity|]. right. split; [left; reflexivity|]. split; [reflexivity|]. left. reflexivity. }
  split; [apply matched_spec; vm_compute; reflexivity|].
  intros [(e & p & ty & b & (y & hv & es & Hy & Rh & Rp & He & Hh & Ms) & _ & _ & Pe & S)|[_ S]]; [|exact (not_null _ _ S)].
  destruct Hy as [<-|[<-|[]]].
  - rewrite (paths_fn _ _ _ Rp (paths_of _ _)) in He. destruct He as [<-|[]]. apply entry_fn in Pe as (_ & _ & ->). exact (not_web _ S).
  - apply (Ms _ _ (or_introl eq_refl) (host_of _ _) h_com). right. rewrite (host_fn _ _ _ Rh (any_host_of _)). split; [left; reflexivity|]. intros [X|X]; discriminate.
Qed.
(** Documents that the parser cannot read: a default backend without rules, a rule without http, rules that are null. *)
Example ex_crashes : map gparse [ing "ns" [("defaultBackend", back "db" 5432)]; ing "ns" [("rules", YList [YMap [("host", YStr "h.com")]])]; ing "ns" [("rules", YNull)]] = [None; None; None].
Proof. vm_compute. reflexivity. Qed.
Print Assumptions C60_default_of_all_hosts_refuted.
Print Assumptions C60_default_of_all_paths_refuted.
Print Assumptions C60_resource_backend_refuted.
Print Assumptions C60_previous_backend_refuted.
Print Assumptions C60_wildcard_label_refuted.
Print Assumptions C60_host_precedence_refuted.
