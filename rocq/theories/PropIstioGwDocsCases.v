(** * Concrete documents of Gateways and VirtualServices: the theorems of PropIstioGwDocs.v apply to them; documents for which they fail. *)
From Coq Require Import ZArith List Bool Arith Lia String Ascii.
From Verif Require Import IntervalModel IntervalFacts HyperModel HyperFacts HyperOps HyperDims HyperTop HyperInst PropHyperCube ConnModel ConnFacts TextModel PortProtoModel
                          PeerModel PeerFacts PeerSetFacts PolicyModel PolicyLaws PolicyFacts LayerFacts OrderFacts ConnAlg StdDims PropLayers YamlModel ClusterModel ConnDict
                          SelectorFacts PropSelectors K8sParserModel K8sParserFacts PropK8sParser CalicoSelectorModel CalicoParserModel PropCalicoCases PropIstioCases IstioValueModel PropIstioValues IstioRuleFacts IstioParserModel PropIstioParser
                          ServiceModel PropServices PropSidecarCases IngressModel IngressWords PropIngressPaths GatewayFacts IngressFacts IngressDocs PropIngress PropIngressCases IstioGwModel IstioGwFacts PropIstioGw PropIstioGwCases
                          IstioGwDocs IstioVsDocs IstioVsRoutes PropIstioGwDocs.
Import ListNotations.
Local Open Scope string_scope.
Local Open Scope list_scope.
Local Open Scope nat_scope.

(** ** The documents *)
Definition gw_server (host : string) : yaml := YMap [("port", YMap [("number", YInt 80); ("protocol", YStr "HTTP"); ("name", YStr "http")]); ("hosts", YList [YStr host])].
Definition gw_sel (eg : bool) : dict := [("istio", YStr (if eg then "egressgateway" else "ingressgateway"))].
Lemma doc_made : forall kind name ns sp, ns <> "" -> istio_doc kind (idoc_of kind name ns sp) name ns sp.
Proof. intros kind name ns sp N. eexists _, _, _. repeat (split; [reflexivity|]). split; [left; reflexivity|]. split; [reflexivity|]. split; [reflexivity|]. split; [left; split; [reflexivity|exact N]|reflexivity]. Qed.
Lemma labels_out : has_labels gcl (gw_sel true) pa.
Proof. split; [left; reflexivity|]. split; [reflexivity|]. intros k v [E|[]]. injection E as <- <-. eexists. split; [reflexivity|]. left. reflexivity. Qed.
Lemma labels_in : has_labels gcl (gw_sel false) pb.
Proof. split; [right; left; reflexivity|]. split; [reflexivity|]. intros k v [E|[]]. injection E as <- <-. eexists. split; [reflexivity|]. left. reflexivity. Qed.
Lemma gw_out : forall name host, gateway_doc gcl (gwdoc name "egressgateway" host) name "istio-system" (gw_sel true) [gw_server host] true.
Proof. intros. eexists. split; [apply doc_made; discriminate|]. split; [reflexivity|]. split; [reflexivity|]. split; [reflexivity|]. exists pa. exact labels_out. Qed.
Lemma gw_in : forall name host, gateway_doc gcl (gwdoc name "ingressgateway" host) name "istio-system" (gw_sel false) [gw_server host] false.
Proof. intros. eexists. split; [apply doc_made; discriminate|]. split; [reflexivity|]. split; [reflexivity|]. split; [reflexivity|]. exists pb. exact labels_in. Qed.
(** What the two Gateway documents are. *)
Lemma gdocs_inv : forall y name ns sel servers eg, In y gdocs -> gateway_doc gcl y name ns sel servers eg ->
  ns = "istio-system" /\ sel = gw_sel eg /\ (name = "out" /\ servers = [gw_server "h.com"] /\ eg = true \/ name = "in" /\ servers = [gw_server "*.org"] /\ eg = false).
Proof.
  intros y name ns sel servers eg [<-|[<-|[]]] D.
  - destruct (gateway_doc_fn _ _ _ _ _ _ _ _ _ _ _ _ (gw_out "out" "h.com") D) as (-> & -> & -> & -> & ->). auto 10.
  - destruct (gateway_doc_fn _ _ _ _ _ _ _ _ _ _ _ _ (gw_in "in" "*.org") D) as (-> & -> & -> & -> & ->). auto 10.
Qed.
Definition sp_out : dict := [("hosts", YList [YStr "h.com"]); ("gateways", YList [YStr "mesh"; YStr "istio-system/out"]);
  ("http", YList [hroute [("gateways", YList [YStr "mesh"])] egw_host 80; hroute [("gateways", YList [YStr "istio-system/out"])] "www.ibm.com" 443])].
Definition in_match : dict := [("uri", YMap [("prefix", YStr "/foo")]); ("method", YMap [("exact", YStr "GET")])].
Definition sp_in : dict := [("hosts", YList [YStr "*.org"]); ("gateways", YList [YStr "istio-system/in"]); ("http", YList [hroute in_match "web" 80])].
Lemma vs_out_is : vs_doc vs_out "out" "ns" sp_out.
Proof. apply doc_made. discriminate. Qed.
Lemma vs_in_is : vs_doc vs_in "in" "ns" sp_in.
Proof. apply doc_made. discriminate. Qed.
Lemma vdocs_inv : forall y name ns sp, In y vdocs -> vs_doc y name ns sp -> ns = "ns" /\ (y = vs_out /\ name = "out" /\ sp = sp_out \/ y = vs_in /\ name = "in" /\ sp = sp_in).
Proof.
  intros y name ns sp [<-|[<-|[]]] D.
  - destruct (istio_doc_fn _ _ _ _ _ _ _ _ vs_out_is D) as (-> & -> & ->). auto.
  - destruct (istio_doc_fn _ _ _ _ _ _ _ _ vs_in_is D) as (-> & -> & ->). auto.
Qed.
Lemma gchosen_out : chosen (gateway_key gcl) gdocs (gwdoc "out" "egressgateway" "h.com") "istio-system/out".
Proof.
  exists [], [gwdoc "in" "ingressgateway" "*.org"]. split; [reflexivity|]. split; [eexists _, _, _, _, _; split; [apply gw_out|reflexivity]|].
  intros y' [<-|[]] (n & s & sel & sv & eg & D & E). destruct (gateway_doc_fn _ _ _ _ _ _ _ _ _ _ _ _ (gw_in "in" "*.org") D) as (-> & -> & _). discriminate.
Qed.
Lemma gchosen_in : chosen (gateway_key gcl) gdocs (gwdoc "in" "ingressgateway" "*.org") "istio-system/in".
Proof. exists [gwdoc "out" "egressgateway" "h.com"], []. split; [reflexivity|]. split; [eexists _, _, _, _, _; split; [apply gw_in|reflexivity]|]. intros y' []. Qed.
Lemma vchosen_out : chosen vs_key vdocs vs_out "ns/out".
Proof.
  exists [], [vs_in]. split; [reflexivity|]. split; [eexists _, _, _; split; [apply vs_out_is|reflexivity]|]. intros y' [<-|[]] (n & s & sp & D & E).
  destruct (istio_doc_fn _ _ _ _ _ _ _ _ vs_in_is D) as (-> & -> & _). discriminate.
Qed.
Lemma vchosen_in : chosen vs_key vdocs vs_in "ns/in".
Proof. exists [vs_out], []. split; [reflexivity|]. split; [eexists _, _, _; split; [apply vs_in_is|reflexivity]|]. intros y' []. Qed.

(** ** The hypotheses *)
Lemma gsvcs_fine : services_fine gks.
Proof.
  intros k p Hk Hp. vm_compute in Hk. destruct Hk as [<-|[<-|[]]]; destruct Hp as [<-|[]]; (split; [reflexivity|]); intros n E; cbn in E; [|discriminate]. injection E as <-. lia.
Qed.
Definition capital (c : ascii) : bool := andb (Nat.leb 65 (nat_of_ascii c)) (Nat.leb (nat_of_ascii c) 90).
Lemma capitals_app : forall l r, forallb capital l = true -> capitals r = [] -> capitals (l ++ r) = l.
Proof. induction l as [|c l IH]; intros r H E; [exact E|]. cbn [forallb] in H. apply andb_true_iff in H as [H1 H2]. cbn [capitals app]. fold (capital c). rewrite H1, (IH r H2 E). reflexivity. Qed.
Lemma gre_right : forall l name t name', l <> [] -> In name all_methods -> text name = l ++ t -> In name' all_methods ->
  gre l (text name') = starts_with l (text name') /\ gre (l ++ allowed_chars ++ ["*"%char]) (text name') = starts_with l (text name').
Proof.
  intros l name t name' _ H E _. assert (C : forallb capital (text name) = true).
  { assert (X : forallb (fun n => forallb capital (text n)) all_methods = true) by reflexivity. rewrite forallb_forall in X. exact (X name H). }
  rewrite E, forallb_app in C. apply andb_true_iff in C as [C _]. unfold gre. split.
  - rewrite <- (app_nil_r l) at 1. rewrite (capitals_app l [] C eq_refl). reflexivity.
  - rewrite (capitals_app l (allowed_chars ++ ["*"%char]) C eq_refl). reflexivity.
Qed.
Lemma hosts_fine : forall s, host_benign gcode gdfa (YStr s) -> hosts_benign gcode gdfa [YStr s].
Proof. intros s H s' [E|[]] _. injection E as <-. exact H. Qed.
Lemma gdocs_benign : forall y name ns sel servers eg, In y gdocs -> gateway_doc gcl y name ns sel servers eg -> hosts_benign gcode gdfa (all_server_hosts servers).
Proof. intros y name ns sel servers eg Hy D. destruct (gdocs_inv _ _ _ _ _ _ Hy D) as (_ & _ & [(_ & -> & _)|(_ & -> & _)]); [exact (hosts_fine _ host1)|exact (hosts_fine _ host2)]. Qed.
Lemma to_host_is : forall h n, dest_entry (to_host h n) h (YInt n).
Proof. intros. eexists _, _. repeat (split; [reflexivity|]). reflexivity. Qed.
Lemma to_host_fine : forall h n, (1 <= n <= 65535)%Z -> entry_fine (to_host h n).
Proof. intros h n H host num D. destruct (IstioVsRoutes.entry_fn _ _ _ _ _ (to_host_is h n) D) as [-> ->]. right. exists n. auto. Qed.
Lemma text_fn : forall k m kind s kind' s', text_given k (YMap m) kind' s' -> yget m k = YMap [(kind, YStr s)] -> kind' = kind /\ s' = s.
Proof. intros k m kind s kind' s' (m' & Q & E' & _) E. injection Q as <-. rewrite E in E'. injection E' as -> ->. auto. Qed.
Lemma no_text : forall k m kind s, text_given k (YMap m) kind s -> yget m k = YNull -> False.
Proof. intros k m kind s (m' & Q & E' & _) E. injection Q as <-. congruence. Qed.
(** One match is whole. *)
Lemma one_whole : forall ns sp m, has_text "uri" (YMap m) \/ ~ has_text "uri" (YMap m) -> http_whole ns sp [YMap m].
Proof.
  intros ns sp m D. split; [destruct D as [D|D]; [left|right]; intros y [<-|[]]; exact D|]. split.
  - unfold all_or_none, own_gateways. destruct (item_gateways (YMap m)) as [|g0 gl] eqn:E; [right; intros y [<-|[]] X; exact (X E)|left; intros y [<-|[]]; rewrite E; discriminate].
  - intros a b c [<-|[]] [<-|[]] [<-|[]]. exists (YMap m). split; [left; reflexivity|]. auto.
Qed.
Lemma foo_prefix : forall m, yget m "uri" = YMap [("prefix", YStr "/foo")] -> uri_benign gcode gdfa (YMap m).
Proof.
  intros m E kind s T. destruct (text_fn _ _ _ _ _ _ T E) as [-> ->]. right. left. split; [reflexivity|]. right. split; [reflexivity|]. split; [apply has_no_dot; reflexivity|]. split; [reflexivity|exact read3].
Qed.
Lemma bar_exact : forall m, yget m "uri" = YMap [("exact", YStr "/bar")] -> uri_benign gcode gdfa (YMap m).
Proof. intros m E kind s T. destruct (text_fn _ _ _ _ _ _ T E) as [-> ->]. left. split; [reflexivity|]. split; [reflexivity|]. split; [apply has_no_dot; reflexivity|exact read4]. Qed.
Lemma exact_method : forall m s, yget m "method" = YMap [("exact", YStr s)] -> In s all_methods -> method_benign (YMap m).
Proof. intros m s E H kind s' T. destruct (text_fn _ _ _ _ _ _ T E) as [-> ->]. left. auto. Qed.
Lemma hroute_fine : forall hl ns sp m h n, (1 <= n <= 65535)%Z -> uri_benign gcode gdfa (YMap m) -> method_benign (YMap m) -> has_text "uri" (YMap m) \/ ~ has_text "uri" (YMap m) ->
  route_benign gcode gdfa hl ns sp RHttp (hroute m h n).
Proof. intros hl ns sp m h n Hn U M D. split; [intros e [<-|[]]; exact (to_host_fine h n Hn)|]. split; [intros it [<-|[]]; auto|exact (one_whole ns sp m D)]. Qed.
Lemma vs_out_fine : vs_benign gcode gdfa "ns" sp_out.
Proof.
  split; [exact (hosts_fine _ host1)|]. intros k y Hy. destruct k; [|destruct Hy|destruct Hy]. destruct Hy as [<-|[<-|[]]];
    (apply hroute_fine; [lia|intros kind s T; destruct (no_text _ _ _ _ T eq_refl)|intros kind s T; destruct (no_text _ _ _ _ T eq_refl)|right; intros (kind & s & T); destruct (no_text _ _ _ _ T eq_refl)]).
Qed.
Lemma foo_given : forall m, yget m "uri" = YMap [("prefix", YStr "/foo")] -> has_text "uri" (YMap m).
Proof. intros m E. exists "prefix", "/foo", m. split; [reflexivity|]. split; [exact E|right; left; reflexivity]. Qed.
Lemma vs_in_fine : vs_benign gcode gdfa "ns" sp_in.
Proof.
  split; [exact (hosts_fine _ host2)|]. intros k y Hy. destruct k; [|destruct Hy|destruct Hy]. destruct Hy as [<-|[]].
  apply hroute_fine; [lia|apply foo_prefix; reflexivity|apply (exact_method _ "GET"); [reflexivity|left; reflexivity]|left; apply foo_given; reflexivity].
Qed.
Lemma vdocs_benign : forall y name ns sp, In y vdocs -> vs_doc y name ns sp -> vs_benign gcode gdfa ns sp.
Proof. intros y name ns sp Hy D. destruct (vdocs_inv _ _ _ _ Hy D) as (-> & [(_ & _ & ->)|(_ & _ & ->)]); [exact vs_out_fine|exact vs_in_fine]. Qed.
Lemma ggs_read : istio_gateways std_dom gcl gdfa gdocs = Some (Some ggs).
Proof. unfold ggs. rewrite (proj1 gparsed). reflexivity. Qed.
Lemma gvss_read : virtual_services std_dom gcl gks gsvcs gdfa gre vdocs = Some (Some gvss).
Proof. unfold gvss. rewrite (proj2 gparsed). reflexivity. Qed.
(** ** C69 for these documents *)
Definition ex_C69_routes := C69_routes ex_reg gcl gcl_ok gks gsvcs gservices gsvcs_fine gcode gdfa gcode_ok eq_refl gre gre_right gdocs vdocs ggs gvss ggs_read gvss_read gdocs_benign vdocs_benign.
Definition ex_C69_way_out := C69_way_out gcl gcl_ok gks gsvcs gservices gsvcs_fine gcode gdfa gcode_ok eq_refl gre gre_right gdocs vdocs ggs gvss ggs_read gvss_read gdocs_benign vdocs_benign.
Definition ex_C69 := C69_documents ex_reg ex_reg_ok gcl gcl_ok gcl_container gcl_ports gks gsvcs gservices gsvcs_fine gcode gdfa gcode_ok eq_refl gre gre_right gdocs vdocs ggs gvss ggs_read gvss_read
  gdocs_benign vdocs_benign gpols (proj1 gnonempty) (proj2 gnonempty) gpols_are.
(** Fair words. *)
Definition fair_host (h : word) : Prop := over_alphabet h /\ (h = text "h.com" \/ exists x, h = x ++ text ".org" /\ x <> [] /\ Forall (fun c => word_char c = true) x).
Definition fair_path (w : word) : Prop := domain_word 7 w /\ forall t, w = text "/foo" ++ t -> t = [] \/ exists u, t = "/"%char :: u.
Lemma fair_org : forall h, fair_host h -> fair_for [YStr "*.org"] h.
Proof.
  intros h [A H]. split; [exact A|]. intros s p x [E|[]] _ _ E2 E3. injection E as <-. injection E2 as <-. destruct H as [-> | (x' & -> & H1 & H2)].
  - apply (f_equal (@rev _)) in E3. rewrite rev_app_distr in E3. discriminate E3.
  - change [".";"o";"r";"g"]%char with (text ".org") in E3. apply app_inv_tail in E3. subst x'. auto.
Qed.
Lemma fair_com : forall h, fair_host h -> fair_for [YStr "h.com"] h.
Proof. intros h [A _]. split; [exact A|]. intros s p x [E|[]] _ _ E2. injection E as <-. discriminate E2. Qed.
Lemma fair_foo : forall w ys, fair_path w -> (forall y s, In y ys -> text_given "uri" y "prefix" s -> s = "/foo") -> path_fair ys w.
Proof. intros w ys [D F] H. split; [exact D|]. intros y s t Hy T E. rewrite (H y s Hy T) in E. right. exact (F t E). Qed.
Lemma gfair : forall h w, fair_host h -> fair_path w -> fair gcl gdocs vdocs h w.
Proof.
  intros h w Fh Fw. split.
  - intros y name ns sel servers eg Hy D. destruct (gdocs_inv _ _ _ _ _ _ Hy D) as (_ & _ & [(_ & -> & _)|(_ & -> & _)]); [exact (fair_com h Fh)|exact (fair_org h Fh)].
  - intros y name ns sp Hy D. destruct (vdocs_inv _ _ _ _ Hy D) as (_ & [(_ & _ & ->)|(_ & _ & ->)]).
    + split; [exact (fair_com h Fh)|]. intros k e He _. apply (fair_foo w _ Fw). intros y' s Hy' T. destruct k; [|destruct He|destruct He]. destruct He as [<-|[<-|[]]]; destruct Hy' as [<-|[]]; destruct (no_text _ _ _ _ T eq_refl).
    + split; [exact (fair_org h Fh)|]. intros k e He _. apply (fair_foo w _ Fw). intros y' s Hy' T. destruct k; [|destruct He|destruct He]. destruct He as [<-|[]]; destruct Hy' as [<-|[]].
      destruct (text_fn _ _ "prefix" "/foo" _ _ T eq_refl) as [_ ->]. reflexivity.
Qed.
Ltac alph := repeat (apply Forall_cons; [reflexivity|]); apply Forall_nil.
Lemma fair_h : fair_host (text "h.com").
Proof. split; [alph|left; reflexivity]. Qed.
Lemma fair_x : fair_host (text "x.org").
Proof. split; [alph|]. right. exists (text "x"). split; [reflexivity|]. split; [discriminate|alph]. Qed.
Lemma fair_1 : fair_path (text "/foo/y").
Proof. split; [split; [alph|intros _; eexists; reflexivity]|]. intros t E. injection E as <-. right. eexists. reflexivity. Qed.
Lemma fair_2 : fair_path (text "/x").
Proof. split; [split; [alph|intros _; eexists; reflexivity]|]. intros t E. discriminate E. Qed.
(** The service web and the service of the egress gateway. *)
Definition web_k : k8s_service := nth 1 gks (K8sService "" "" [] []).
Definition eg_k : k8s_service := nth 0 gks (K8sService "" "" [] []).

Lemma web_served : served_by gks "ns" "web" web_k.
Proof. split; [exists [eg_k], []; split; [vm_compute; reflexivity|intros s' []]|]. left. split; [intros H; cbn in H; repeat (destruct H as [H|H]; [discriminate|]); exact H|]. split; reflexivity. Qed.
Lemma eg_served : served_by gks "ns" egw_host eg_k.
Proof.
  split; [exists [], [web_k]; split; [vm_compute; reflexivity|intros s' [<-|[]] [E _]; discriminate]|]. right. exists "istio-system". split; [reflexivity|].
  split; [intros H; cbn in H; repeat (destruct H as [H|H]; [discriminate|]); exact H|]. split; [intros H; cbn in H; repeat (destruct H as [H|H]; [discriminate|]); exact H|reflexivity].
Qed.
Lemma web_at : dest_at gcl gks "ns" (to_host "web" 80) (PN 0 "ns/c") 8080.
Proof.
  exists "web", (YInt 80). split; [apply to_host_is|]. left. exists web_k, [pc]. eexists. split; [exact web_served|]. split; [vm_compute; reflexivity|]. split; [left; reflexivity|]. split.
  - right. exists [], []. split; [vm_compute; reflexivity|]. split; [|intros q []]. exists 80%Z. split; reflexivity.
  - right. exists "http". split; [reflexivity|]. exists 0, "ns/c". split; reflexivity.
Qed.
Lemma eg_at : dest_at gcl gks "ns" (to_host egw_host 80) (PN 0 "ns/a") 8080.
Proof.
  exists egw_host, (YInt 80). split; [apply to_host_is|]. left. exists eg_k, [pa]. eexists. split; [exact eg_served|]. split; [vm_compute; reflexivity|]. split; [left; reflexivity|]. split.
  - right. exists [], []. split; [vm_compute; reflexivity|]. split; [|intros q []]. exists 80%Z. split; reflexivity.
  - left. reflexivity.
Qed.
Lemma ibm_external : external gcl "ns" "www.ibm.com" (PN 2 "www.ibm.com").
Proof.
  split; [|split; [reflexivity|cbn; auto]]. intros a b H. apply local_service_spec in H. vm_compute in H. discriminate.
Qed.
Lemma ibm_at : dest_at gcl gks "ns" (to_host "www.ibm.com" 443) (PN 2 "www.ibm.com") 443.
Proof. exists "www.ibm.com", (YInt 443). split; [apply to_host_is|]. right. split; [exact ibm_external|reflexivity]. Qed.
(** Hosts. *)
Lemma plain_slash : forall s, existsb (Ascii.eqb "/"%char) (text s) = false -> unscoped s.
Proof. intros s H I. assert (X : existsb (Ascii.eqb "/"%char) (text s) = true) by (apply existsb_exists; exists "/"%char; auto). congruence. Qed.
Lemma says_h : hosts_say [YStr "h.com"] (text "h.com").
Proof. exists "h.com". split; [left; reflexivity|]. split; [apply plain_slash; reflexivity|]. right. right. split; [|reflexivity]. intros H. cbn in H. repeat (destruct H as [H|H]; [discriminate|]). exact H. Qed.
Lemma says_x : hosts_say [YStr "*.org"] (text "x.org").
Proof. exists "*.org". split; [left; reflexivity|]. split; [apply plain_slash; reflexivity|]. right. left. exists (text ".org"), (text "x"). split; [reflexivity|]. split; [reflexivity|discriminate]. Qed.
Lemma in_bound : item_bound "ns" sp_in (YMap in_match) "istio-system/in".
Proof. left. exists "istio-system/in". split; [left; reflexivity|]. right. split; [discriminate|]. right. exists "istio-system", "in". split; [reflexivity|]. split; [apply plain_slash; reflexivity|reflexivity]. Qed.
(** The request GET x.org/foo/y is taken at the ingress gateway and sent to the pod of the service web. *)
Example route_in : doc_route ex_reg gcl gks gdocs vdocs false (gconn pb pc 8080 0 "x.org" "/foo/y") (text "x.org") (text "/foo/y").
Proof.
  exists (gw_sel false), "ns", (hroute in_match "web" 80), (to_host "web" 80). split.
  - exists (gwdoc "in" "ingressgateway" "*.org"), "in", "istio-system", [gw_server "*.org"], vs_in, "in", sp_in, RHttp. split; [exact gchosen_in|]. split; [apply gw_in|]. split; [exact vchosen_in|].
    split; [exact vs_in_is|]. split; [left; reflexivity|]. split; [|split; exact says_x]. right. exists (YMap in_match). split; [left; reflexivity|]. split; [exact in_bound|]. split.
    + intros kind s T. destruct (text_fn _ _ "prefix" "/foo" _ _ T eq_refl) as [-> ->]. right. left. split; [reflexivity|]. exists (text "/y"). reflexivity.
    + exists "GET". split; [split; [vm_compute; discriminate|reflexivity]|]. intros kind s T. destruct (text_fn _ _ "exact" "GET" _ _ T eq_refl) as [-> ->]. left. split; reflexivity.
  - split; [exists 0, "ns/b"; split; [vm_compute; reflexivity|exact labels_in]|]. split; [reflexivity|]. split; [left; reflexivity|].
    replace (a_dst ex_reg (gconn pb pc 8080 0 "x.org" "/foo/y")) with (PN 0 "ns/c") by (vm_compute; reflexivity). exact web_at.
Qed.
Definition out_route : yaml := hroute [("gateways", YList [YStr "istio-system/out"])] "www.ibm.com" 443.
Definition mesh_route : yaml := hroute [("gateways", YList [YStr "mesh"])] egw_host 80.
Lemma free_match : forall m w me, yget m "uri" = YNull -> yget m "method" = YNull -> (0 <= me <= 8)%Z -> takes_uri (YMap m) w /\ takes_method (YMap m) me.
Proof.
  intros m w me E1 E2 Hm. split; [intros kind s T; destruct (no_text _ _ _ _ T E1)|]. destruct (proj1 (method_range me) Hm) as (name & H). exists name. split; [exact H|]. intros kind s T. destruct (no_text _ _ _ _ T E2).
Qed.
Lemma serves_out : forall w me, (0 <= me <= 8)%Z -> doc_serves gcl gdocs vdocs true (gw_sel true) "ns" out_route (text "h.com") w me.
Proof.
  intros w me Hm. exists (gwdoc "out" "egressgateway" "h.com"), "out", "istio-system", [gw_server "h.com"], vs_out, "out", sp_out, RHttp. split; [exact gchosen_out|]. split; [apply gw_out|]. split; [exact vchosen_out|].
  split; [exact vs_out_is|]. split; [right; left; reflexivity|]. split; [|split; exact says_h]. right. eexists. split; [left; reflexivity|]. split.
  - exists "istio-system/out". split; [left; reflexivity|]. right. split; [discriminate|]. right. exists "istio-system", "out". split; [reflexivity|]. split; [apply plain_slash; reflexivity|reflexivity].
  - apply free_match; [reflexivity|reflexivity|exact Hm].
Qed.
Lemma sends_out : forall h w me, (0 <= me <= 8)%Z -> doc_sends vdocs "ns" (to_host egw_host 80) h w me.
Proof.
  intros h w me Hm. exists vs_out, "out", sp_out, RHttp, mesh_route, (YInt 80). split; [exact vchosen_out|]. split; [exact vs_out_is|]. split; [left; reflexivity|]. split.
  - right. eexists. split; [left; reflexivity|]. split; [exists "mesh"; split; [left; reflexivity|left; split; reflexivity]|]. apply free_match; [reflexivity|reflexivity|exact Hm].
  - split; [left; reflexivity|]. apply (to_host_is egw_host 80).
Qed.
Example gway_out : way_out ggs gvss.
Proof.
  apply ex_C69_way_out.
  - exists (gw_sel true), "ns", out_route, (text "h.com"), (text "/x"), 0%Z. split; [apply serves_out; lia|apply gfair; [exact fair_h|exact fair_2]].
  - exists "ns", (to_host egw_host 80), (text "h.com"), (text "/x"), 0%Z, (PN 0 "ns/a"). split; [apply sends_out; lia|]. split; [apply gfair; [exact fair_h|exact fair_2]|].
    destruct eg_at as (host & num & D & [(k & pods & p & S & T & P & _)|(X & _)]); exists host, num; (split; [exact D|]); [left; exists k, pods; auto|right; exact X].
Qed.
Example route_out : doc_route ex_reg gcl gks gdocs vdocs true (gconn pa dns 443 3 "h.com" "/x") (text "h.com") (text "/x").
Proof.
  exists (gw_sel true), "ns", out_route, (to_host "www.ibm.com" 443). split; [apply serves_out; vm_compute; split; discriminate|].
  split; [exists 0, "ns/a"; split; [vm_compute; reflexivity|exact labels_out]|]. split; [reflexivity|]. split; [left; reflexivity|].
  replace (a_dst ex_reg (gconn pa dns 443 3 "h.com" "/x")) with (PN 2 "www.ibm.com") by (vm_compute; reflexivity). exact ibm_at.
Qed.
Lemma enters_out : forall h w, doc_enters ex_reg gcl gks vdocs (gconn pc pa 8080 0 h w) (text h) (text w).
Proof.
  intros h w. split; [|split; [reflexivity|]].
  - replace (a_src ex_reg (gconn pc pa 8080 0 h w)) with (PN 0 "ns/c") by (vm_compute; reflexivity). cbn [pt_in]. vm_compute. auto.
  - exists "ns", (to_host egw_host 80). split; [apply sends_out; vm_compute; split; discriminate|].
    replace (a_dst ex_reg (gconn pc pa 8080 0 h w)) with (PN 0 "ns/a") by (vm_compute; reflexivity). exact eg_at.
Qed.
Ltac gspace := unfold gconn; hspace.
(** What the policies allow, read from the documents. *)
Example documents_say : egress_allowed gpols (gconn pb pc 8080 0 "x.org" "/foo/y") /\ egress_allowed gpols (gconn pa dns 443 3 "h.com" "/x") /\ ingress_allowed gpols (gconn pc pa 8080 0 "h.com" "/x").
Proof.
  split; [|split].
  - refine (proj2 (proj1 (ex_C69 _ (text "x.org") (text "/foo/y") _ eq_refl eq_refl _)) _); [gspace|apply gfair; [exact fair_x|exact fair_1]|]. exists false. split; [discriminate|exact route_in].
  - refine (proj2 (proj1 (ex_C69 _ (text "h.com") (text "/x") _ eq_refl eq_refl _)) _); [gspace|apply gfair; [exact fair_h|exact fair_2]|]. exists true. split; [intros _; exact gway_out|exact route_out].
  - refine (proj2 (proj2 (ex_C69 _ (text "h.com") (text "/x") _ eq_refl eq_refl _)) _); [gspace|apply gfair; [exact fair_h|exact fair_2]|]. split; [exact gway_out|apply enters_out].
Qed.
Definition allowed_b (pols : list policy) (pt : conn) : bool := existsb (fun P => match p_action P with Allow => p_affects_eg P && PropIngressCases.matched P pt | _ => false end) pols.
Lemma allowed_spec : forall pols pt, allowed_b pols pt = true <-> egress_allowed pols pt.
Proof.
  intros pols pt. unfold allowed_b, egress_allowed. rewrite existsb_exists. split.
  - intros (P & HP & H). exists P. destruct (p_action P) eqn:Ea; try discriminate. apply andb_true_iff in H as [H1 H2]. split; [exact HP|]. split; [reflexivity|]. split; [exact H1|]. apply matched_spec. exact H2.
  - intros (P & HP & Ea & H1 & H2). exists P. split; [exact HP|]. rewrite Ea, H1. cbn [andb]. apply matched_spec. exact H2.
Qed.
(** No document sends POST x.org/foo/y anywhere. *)
Example not_said : ~ exists eg, doc_route ex_reg gcl gks gdocs vdocs eg (gconn pb pc 8080 2 "x.org" "/foo/y") (text "x.org") (text "/foo/y").
Proof.
  intros (eg & H). assert (N : allowed_b gpols (gconn pb pc 8080 2 "x.org" "/foo/y") = false) by (vm_compute; reflexivity).
  assert (Y : egress_allowed gpols (gconn pb pc 8080 2 "x.org" "/foo/y")); [|apply allowed_spec in Y; rewrite N in Y; discriminate].
  refine (proj2 (proj1 (ex_C69 _ (text "x.org") (text "/foo/y") _ eq_refl eq_refl _)) _); [gspace|apply gfair; [exact fair_x|exact fair_1]|]. exists eg. split; [intros _; exact gway_out|exact H].
Qed.

(** ** Only the ingress gateway *)
Definition gdocs1 := [gwdoc "in" "ingressgateway" "*.org"].
Definition vdocs1 := [vs_in].
Definition ggs1 : list gateway := match istio_gateways std_dom gcl gdfa gdocs1 with Some (Some l) => l | _ => [] end.
Definition gvss1 : list vservice := match virtual_services std_dom gcl gks gsvcs gdfa gre vdocs1 with Some (Some l) => l | _ => [] end.
Definition gpols1 : list policy := match gateway_policies std_dom ex_reg gcl (Some ggs1) (Some gvss1) with Some l => l | None => [] end.
Lemma sub_g : forall y, In y gdocs1 -> In y gdocs.
Proof. intros y [<-|[]]. right. left. reflexivity. Qed.
Lemma sub_v : forall y, In y vdocs1 -> In y vdocs.
Proof. intros y [<-|[]]. right. left. reflexivity. Qed.
Lemma read_1 : istio_gateways std_dom gcl gdfa gdocs1 = Some (Some ggs1) /\ virtual_services std_dom gcl gks gsvcs gdfa gre vdocs1 = Some (Some gvss1).
Proof. split; vm_compute; reflexivity. Qed.
Lemma some_1 : ggs1 <> [] /\ gvss1 <> [].
Proof. split; vm_compute; discriminate. Qed.
Lemma pols_1 : gateway_policies std_dom ex_reg gcl (Some ggs1) (Some gvss1) = Some gpols1.
Proof. vm_compute. reflexivity. Qed.
Definition ex_C69_in := C69_ingress_gateways ex_reg ex_reg_ok gcl gcl_ok gcl_container gcl_ports gks gsvcs gservices gsvcs_fine gcode gdfa gcode_ok eq_refl gre gre_right gdocs1 vdocs1 ggs1 gvss1 (proj1 read_1) (proj2 read_1)
  (fun y name ns sel servers eg H => gdocs_benign y name ns sel servers eg (sub_g y H)) (fun y name ns sp H => vdocs_benign y name ns sp (sub_v y H)) gpols1 (proj1 some_1) (proj2 some_1) pols_1.
Lemma no_egress1 : no_egress gcl gdocs1.
Proof. intros y name ns sel servers [<-|[]] D. destruct (gateway_doc_fn _ _ _ _ _ _ _ _ _ _ _ _ (gw_in "in" "*.org") D) as (_ & _ & _ & _ & E). discriminate. Qed.
Lemma gfair1 : forall h w, fair_host h -> fair_path w -> fair gcl gdocs1 vdocs1 h w.
Proof.
  intros h w Fh Fw. destruct (gfair h w Fh Fw) as [F1 F2]. split.
  - intros y name ns sel servers eg Hy. exact (F1 y name ns sel servers eg (sub_g y Hy)).
  - intros y name ns sp Hy. exact (F2 y name ns sp (sub_v y Hy)).
Qed.
Definition glayer1 := all_allowed (layer_conns (cube_ops std_dom std_all ex_reg) LIstioGateway (cl_peers gcl) gpols1 only_all_allowed).
(** The ingress gateway is allowed to send a request exactly if the documents route it; pod c of the namespace ns may do so as well. *)
Example layer_in : forall h w port me, (1 <= port <= 65535)%Z -> (0 <= me <= 8)%Z -> fair_host (text h) -> fair_path (text w) ->
  (gconn pb pc port me h w @ glayer1 <-> doc_route ex_reg gcl gks gdocs1 vdocs1 false (gconn pb pc port me h w) (text h) (text w)) /\ gconn pc pa port me h w @ glayer1.
Proof.
  intros h w port me Hp Hm Fh Fw.
  assert (Sp : forall s d, In s [pa; pb; pc] -> In d [pa; pb; pc] -> a_space std_dom (gconn s d port me h w)).
  { intros s d Hs Hd. unfold gconn. apply hconn_space; [destruct Hs as [<-|[<-|[<-|[]]]]|destruct Hd as [<-|[<-|[<-|[]]]]| | |]; try (apply peers_mem; vm_compute; reflexivity); lia. }
  assert (S1 : a_src ex_reg (gconn pb pc port me h w) = PN 0 "ns/b") by (vm_compute; reflexivity). assert (D1 : a_dst ex_reg (gconn pb pc port me h w) = PN 0 "ns/c") by (vm_compute; reflexivity).
  assert (S2 : a_src ex_reg (gconn pc pa port me h w) = PN 0 "ns/c") by (vm_compute; reflexivity). assert (D2 : a_dst ex_reg (gconn pc pa port me h w) = PN 0 "ns/a") by (vm_compute; reflexivity).
  assert (M : forall x, In x ["ns/a"; "ns/b"; "ns/c"] -> member (cl_peers gcl) (PN 0 x)) by (intros x [<-|[<-|[<-|[]]]]; cbn; auto).
  assert (ND : forall x, ~ named_dns (PN 0 x)) by (intros x H; discriminate H).
  split.
  - refine (proj1 (ex_C69_in no_egress1 only_all_allowed eq_refl (gconn pb pc port me h w) (text h) (text w) _ eq_refl _ _ _ eq_refl eq_refl (gfair1 _ _ Fh Fw)) _).
    + apply Sp; cbn; auto.
    + rewrite S1. apply M. cbn; auto.
    + rewrite S1. apply ND.
    + right. rewrite D1. apply M. cbn; auto.
    + exists (gw_sel false), "ns", (hroute in_match "web" 80), (text "x.org"), (text "/foo/y"), 0%Z. split; [|split; [apply gfair1; [exact fair_x|exact fair_1]|exists 0, "ns/b"; split; [exact S1|exact labels_in]]].
      exists (gwdoc "in" "ingressgateway" "*.org"), "in", "istio-system", [gw_server "*.org"], vs_in, "in", sp_in, RHttp.
      split; [exists [], []; split; [reflexivity|]; split; [eexists _, _, _, _, _; split; [apply gw_in|reflexivity]|intros y' []]|]. split; [apply gw_in|].
      split; [exists [], []; split; [reflexivity|]; split; [eexists _, _, _; split; [apply vs_in_is|reflexivity]|intros y' []]|].
      split; [exact vs_in_is|]. split; [left; reflexivity|]. split; [|split; exact says_x]. right. exists (YMap in_match). split; [left; reflexivity|]. split; [exact in_bound|]. split.
      * intros kind s T. destruct (text_fn _ _ "prefix" "/foo" _ _ T eq_refl) as [-> ->]. right. left. split; [reflexivity|]. exists (text "/y"). reflexivity.
      * exists "GET". split; [split; [vm_compute; discriminate|reflexivity]|]. intros kind s T. destruct (text_fn _ _ "exact" "GET" _ _ T eq_refl) as [-> ->]. left. split; reflexivity.
  - refine (proj2 (ex_C69_in no_egress1 only_all_allowed eq_refl (gconn pc pa port me h w) (text h) (text w) _ eq_refl _ _ _ eq_refl eq_refl (gfair1 _ _ Fh Fw)) _).
    + apply Sp; cbn; auto.
    + rewrite S2. apply M. cbn; auto.
    + rewrite S2. apply ND.
    + right. rewrite D2. apply M. cbn; auto.
    + intros gy gname gns sel servers [<-|[]] D (k & i & E & (_ & _ & L)). destruct (gateway_doc_fn _ _ _ _ _ _ _ _ _ _ _ _ (gw_in "in" "*.org") D) as (_ & _ & -> & _). rewrite S2 in E. injection E as <- <-.
      destruct (L "istio" (YStr "ingressgateway")) as (v & E & [H|H]); [left; reflexivity| |]; injection E as <-; vm_compute in H; discriminate.
Qed.

(** ** Documents for which the policies allow what no document says *)
(** Documents that are read, fair words, and a connection that the policies allow although no route takes it. *)
Definition misread (vd : list yaml) (pt : conn) (h w : word) : Prop := exists vss pols,
  virtual_services std_dom gcl gks gsvcs gdfa gre vd = Some (Some vss) /\ gateway_policies std_dom ex_reg gcl (Some ggs) (Some vss) = Some pols /\ a_space std_dom pt /\ pt 6 = gcode h /\ pt 7 = gcode w /\
  fair gcl gdocs vd h w /\ egress_allowed pols pt /\ ~ exists eg, doc_route ex_reg gcl gks gdocs vd eg pt h w.
(** One route with two matches: GET below /foo, and POST of /bar. *)
Definition vs_of_matches (ms : list dict) : yaml := idoc_of "VirtualService" "in" "ns" [("hosts", YList [YStr "*.org"]); ("gateways", YList [YStr "istio-system/in"]);
  ("http", YList [YMap [("match", YList (map YMap ms)); ("route", YList [to_host "web" 80])]])].
Definition sp_of_matches (ms : list dict) : dict := [("hosts", YList [YStr "*.org"]); ("gateways", YList [YStr "istio-system/in"]);
  ("http", YList [YMap [("match", YList (map YMap ms)); ("route", YList [to_host "web" 80])]])].
Lemma matches_doc : forall ms y name ns sp, In y [vs_of_matches ms] -> vs_doc y name ns sp -> name = "in" /\ ns = "ns" /\ sp = sp_of_matches ms.
Proof. intros ms y name ns sp [<-|[]] D. exact (istio_doc_fn _ _ _ _ _ _ _ _ (doc_made "VirtualService" "in" "ns" (sp_of_matches ms) ltac:(discriminate)) D). Qed.
Lemma matches_entry : forall ms k e, In e (entries (sp_of_matches ms) k) -> k = RHttp /\ match_items e = map YMap ms /\ dest_items e = [to_host "web" 80].
Proof. intros ms k e H. destruct k; [|destruct H|destruct H]. destruct H as [<-|[]]. auto. Qed.
Lemma matches_fair : forall ms h w, fair_host h -> fair_path w -> (forall m s, In m ms -> text_given "uri" (YMap m) "prefix" s -> s = "/foo") -> fair gcl gdocs [vs_of_matches ms] h w.
Proof.
  intros ms h w Fh Fw H. split; [exact (proj1 (gfair h w Fh Fw))|]. intros y name ns sp Hy D. destruct (matches_doc _ _ _ _ _ Hy D) as (_ & _ & ->). split; [exact (fair_org h Fh)|].
  intros k e He _. destruct (matches_entry _ _ _ He) as (_ & -> & _). apply (fair_foo w _ Fw). intros y' s Hy' T. apply in_map_iff in Hy' as (m & <- & Hm). exact (H m s Hm T).
Qed.
Lemma matches_taken : forall ms eg pt h w, ms <> [] -> doc_route ex_reg gcl gks gdocs [vs_of_matches ms] eg pt h w -> exists m, In m ms /\ takes_uri (YMap m) w /\ takes_method (YMap m) (pt 5).
Proof.
  intros ms eg pt h w N (sel & ns & e & de & (gy & gname & gns & servers & vy & vname & sp & k & _ & _ & Cv & Dv & He & T & _) & _).
  destruct (matches_doc _ _ _ _ _ (chosen_In _ _ _ _ Cv) Dv) as (_ & _ & ->). destruct (matches_entry _ _ _ He) as (-> & Em & _). cbn [route_takes] in T. rewrite Em in T. destruct T as [[E _]|(y & Hy & _ & U & M)].
  - destruct ms; [congruence|discriminate].
  - apply in_map_iff in Hy as (m & <- & Hm). eauto.
Qed.
Definition get_foo : dict := [("uri", YMap [("prefix", YStr "/foo")]); ("method", YMap [("exact", YStr "GET")])].
Definition post_bar : dict := [("uri", YMap [("exact", YStr "/bar")]); ("method", YMap [("exact", YStr "POST")])].
(** The parts of different matches of a route are united one by one: POST of a path below /foo is allowed. *)
Theorem C69_matches_refuted : ~ forall vd, (forall y name ns sp, In y vd -> vs_doc y name ns sp -> hosts_benign gcode gdfa (host_list sp) /\ forall k e, In e (entries sp k) ->
    (forall de, In de (dest_items e) -> entry_fine de) /\ forall it, In it (match_items e) -> uri_benign gcode gdfa it /\ method_benign it) ->
  forall pt h w, ~ misread vd pt h w.
Proof.
  intros H. refine (H [vs_of_matches [get_foo; post_bar]] _ (gconn pb pc 8080 2 "x.org" "/foo/y") (text "x.org") (text "/foo/y") _); clear H.
  - intros y name ns sp Hy D. destruct (matches_doc _ _ _ _ _ Hy D) as (_ & _ & ->). split; [exact (hosts_fine _ host2)|]. intros k e He. destruct (matches_entry _ _ _ He) as (_ & -> & ->).
    split; [intros de [<-|[]]; apply to_host_fine; lia|]. intros it [<-|[<-|[]]].
    + split; [apply foo_prefix; reflexivity|apply (exact_method _ "GET"); [reflexivity|left; reflexivity]].
    + split; [apply bar_exact; reflexivity|apply (exact_method _ "POST"); [reflexivity|do 2 right; left; reflexivity]].
  - destruct (virtual_services std_dom gcl gks gsvcs gdfa gre [vs_of_matches [get_foo; post_bar]]) as [[vss|]|] eqn:Ev; [|vm_compute in Ev; discriminate..].
    destruct (gateway_policies std_dom ex_reg gcl (Some ggs) (Some vss)) as [pols|] eqn:Ep.
    2:{ vm_compute in Ev. injection Ev as <-. vm_compute in Ep. discriminate. }
    exists vss, pols. split; [exact Ev|]. split; [exact Ep|]. split; [gspace|]. split; [reflexivity|]. split; [reflexivity|]. split; [|split].
    + apply matches_fair; [exact fair_x|exact fair_1|]. intros m s [<-|[<-|[]]] T; [destruct (text_fn _ _ "prefix" "/foo" _ _ T eq_refl) as [_ ->]; reflexivity|].
      destruct (text_fn _ _ "exact" "/bar" _ _ T eq_refl) as [E _]. discriminate.
    + apply allowed_spec. assert (X : match virtual_services std_dom gcl gks gsvcs gdfa gre [vs_of_matches [get_foo; post_bar]] with
          | Some (Some v) => match gateway_policies std_dom ex_reg gcl (Some ggs) (Some v) with Some p => allowed_b p (gconn pb pc 8080 2 "x.org" "/foo/y") | None => false end | _ => false end = true) by (vm_compute; reflexivity).
      rewrite Ev, Ep in X. exact X.
    + intros (eg & R). destruct (matches_taken [get_foo; post_bar] _ _ _ _ ltac:(discriminate) R) as (m & [<-|[<-|[]]] & U & (name & Mn & M)).
      * destruct (M "exact" "GET") as [(_ & ->)|(E & _)]; [eexists; split; [reflexivity|]; split; [reflexivity|left; reflexivity]| |discriminate]. destruct Mn as [_ E]. vm_compute in E. discriminate.
      * destruct (U "exact" "/bar") as [(_ & E)|[(E & _)|(E & _)]]; [eexists; split; [reflexivity|]; split; [reflexivity|left; reflexivity]| | |]; discriminate.
Qed.
(** The text of an exact method is looked for at the beginning of the names: with "P" the methods POST, PUT and PATCH are allowed. *)
Definition exact_p : dict := [("method", YMap [("exact", YStr "P")])].
Theorem C69_methods_refuted : ~ forall vd, (forall y name ns sp, In y vd -> vs_doc y name ns sp -> hosts_benign gcode gdfa (host_list sp) /\ forall k e, In e (entries sp k) -> k = RHttp /\
    (forall de, In de (dest_items e) -> entry_fine de) /\ (forall it, In it (match_items e) -> uri_benign gcode gdfa it) /\ http_whole ns sp (match_items e)) ->
  forall pt h w, ~ misread vd pt h w.
Proof.
  intros H. refine (H [vs_of_matches [exact_p]] _ (gconn pb pc 8080 2 "x.org" "/foo/y") (text "x.org") (text "/foo/y") _); clear H.
  - intros y name ns sp Hy D. destruct (matches_doc _ _ _ _ _ Hy D) as (_ & _ & ->). split; [exact (hosts_fine _ host2)|]. intros k e He. destruct (matches_entry _ _ _ He) as (-> & -> & ->). split; [reflexivity|].
    split; [intros de [<-|[]]; apply to_host_fine; lia|]. split; [intros it [<-|[]] kind s T; destruct (no_text _ _ _ _ T eq_refl)|].
    apply one_whole. right. intros (kind & s & T). destruct (no_text _ _ _ _ T eq_refl).
  - destruct (virtual_services std_dom gcl gks gsvcs gdfa gre [vs_of_matches [exact_p]]) as [[vss|]|] eqn:Ev; [|vm_compute in Ev; discriminate..].
    destruct (gateway_policies std_dom ex_reg gcl (Some ggs) (Some vss)) as [pols|] eqn:Ep.
    2:{ vm_compute in Ev. injection Ev as <-. vm_compute in Ep. discriminate. }
    exists vss, pols. split; [exact Ev|]. split; [exact Ep|]. split; [gspace|]. split; [reflexivity|]. split; [reflexivity|]. split; [|split].
    + apply matches_fair; [exact fair_x|exact fair_1|]. intros m s [<-|[]] T. destruct (no_text _ _ _ _ T eq_refl).
    + apply allowed_spec. assert (X : match virtual_services std_dom gcl gks gsvcs gdfa gre [vs_of_matches [exact_p]] with
          | Some (Some v) => match gateway_policies std_dom ex_reg gcl (Some ggs) (Some v) with Some p => allowed_b p (gconn pb pc 8080 2 "x.org" "/foo/y") | None => false end | _ => false end = true) by (vm_compute; reflexivity).
      rewrite Ev, Ep in X. exact X.
    + intros (eg & R). destruct (matches_taken [exact_p] _ _ _ _ ltac:(discriminate) R) as (m & [<-|[]] & _ & (name & Mn & M)).
      destruct (M "exact" "P") as [(_ & ->)|(E & _)]; [eexists; split; [reflexivity|]; split; [reflexivity|left; reflexivity]| |discriminate]. destruct Mn as [_ E]. vm_compute in E. discriminate.
Qed.
(** The policies for the way into the egress gateway do not hold the hosts of the VirtualService. *)
Definition doc_sends_for (vd : list yaml) (ns : string) (de : yaml) (h w : word) (me : Z) : Prop :=
  exists vy vname sp k e num, chosen vs_key vd vy (slash_name ns vname) /\ vs_doc vy vname ns sp /\ In e (entries sp k) /\
    route_takes ns sp k e "mesh" h w me /\ hosts_say (host_list sp) h /\ In de (dest_items e) /\ dest_entry de egress_host num.
Theorem C69_entrance_hosts_refuted : ~ forall pt h w, a_space std_dom pt -> pt 6 = gcode h -> pt 7 = gcode w -> fair gcl gdocs vdocs h w -> ingress_allowed gpols pt ->
  exists ns de, doc_sends_for vdocs ns de h w (pt 5).
Proof.
  intros H. assert (F : fair gcl gdocs vdocs (text "x.org") (text "/x")) by (apply gfair; [exact fair_x|exact fair_2]).
  destruct (H (gconn pc pa 8080 0 "x.org" "/x") (text "x.org") (text "/x") ltac:(gspace) eq_refl eq_refl F) as (ns & de & (vy & vname & sp & k & e & num & Cv & Dv & He & T & Hs & Hd & De)).
  - refine (proj2 (proj2 (ex_C69 _ (text "x.org") (text "/x") _ eq_refl eq_refl F)) _); [gspace|]. split; [exact gway_out|apply enters_out].
  - destruct (vdocs_inv _ _ _ _ (chosen_In _ _ _ _ Cv) Dv) as (-> & [(_ & _ & ->)|(_ & _ & ->)]).
    + destruct Hs as (s & [E|[]] & _ & M). injection E as <-. destruct M as [E|[(p & x & E & _)|[_ E]]]; discriminate.
    + destruct k; [|destruct He|destruct He]. destruct He as [<-|[]]. destruct Hd as [<-|[]]. destruct (IstioVsRoutes.entry_fn _ _ _ _ _ (to_host_is "web" 80) De) as [E _]. discriminate.
Qed.
Print Assumptions C69_routes.
Print Assumptions C69_entrances.
Print Assumptions C69_way_out.
Print Assumptions C69_documents.
Print Assumptions C69_ingress_gateways.
Print Assumptions C69_matches_refuted.
Print Assumptions C69_methods_refuted.
Print Assumptions C69_entrance_hosts_refuted.
