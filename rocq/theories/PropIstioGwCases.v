(** * Concrete Gateways and VirtualServices: the theorems of PropIstioGw.v apply to them. *)
From Coq Require Import ZArith List Bool Arith Lia String Ascii.
From Verif Require Import IntervalModel IntervalFacts HyperModel HyperFacts HyperOps HyperDims HyperTop HyperInst PropHyperCube ConnModel ConnFacts TextModel PortProtoModel
                          PeerModel PeerFacts PeerSetFacts PolicyModel PolicyLaws PolicyFacts LayerFacts OrderFacts ConnAlg StdDims PropLayers YamlModel ClusterModel ConnDict
                          SelectorFacts PropSelectors K8sParserModel K8sParserFacts PropK8sParser CalicoSelectorModel CalicoParserModel PropCalicoCases PropIstioCases IstioValueModel PropIstioValues IstioRuleFacts IstioParserModel PropIstioParser
                          ServiceModel PropServices PropSidecarCases IngressModel IngressWords PropIngressPaths GatewayFacts IngressFacts IngressDocs PropIngress PropIngressCases IstioGwModel IstioGwFacts PropIstioGw.
Import ListNotations.
Local Open Scope string_scope.
Local Open Scope list_scope.
Local Open Scope nat_scope.

(** ** The cluster: pod a is the egress gateway, pod b the ingress gateway and pod c a pod of namespace ns. *)
Definition gcl : cluster :=
  {| cl_peers := [pa; pb; pc; dns];
     cl_labels := fun p => if peer_eqb p pa then [("app", "eg"); ("istio", "egressgateway")] else if peer_eqb p pb then [("istio", "ingressgateway")]
                           else if peer_eqb p pc then [("app", "web")] else [];
     cl_extra := fun _ => [];
     cl_ns := fun p => if peer_eqb p pa || peer_eqb p pb then Some "istio-system" else if peer_eqb p pc then Some "ns" else None;
     cl_nslabels := fun n => [];
     cl_ports := fun p => if peer_eqb p pc then [("http", (8080, 6))%Z] else [] |}.
Lemma gcl_ok : cluster_ok gcl.
Proof. intros q [<-|[<-|[<-|[<-|[]]]]]; eexists; eexists; (split; [reflexivity|]); vm_compute; split; congruence. Qed.
Lemma gcl_container : container ex_reg (cl_peers gcl).
Proof. intros q [<-|[<-|[<-|[<-|[]]]]]; (split; [vm_compute; auto 10|reflexivity]). Qed.
Lemma gcl_ports : forall p nm n pr, assoc_s nm (cl_ports gcl p) = Some (n, pr) -> (1 <= n <= 65535)%Z.
Proof.
  intros p nm n pr H. cbn [cl_ports gcl] in H. destruct (peer_eqb p pc); [|discriminate]. cbn [assoc_s] in H. destruct (String.eqb nm "http"); [|discriminate]. injection H as <- _. lia.
Qed.
Definition gks : list k8s_service := flat_map (fun y => match parse_service y with Some (Some s) => [s] | _ => [] end)
  [svc "istio-egressgateway" "istio-system" "eg" [("port", YInt 80); ("targetPort", YInt 8080)]; svc "web" "ns" "web" [("port", YInt 80); ("targetPort", YStr "http")]].
Definition gsvcs : list service := [Service "istio-egressgateway" "istio-system" [pa]; Service "web" "ns" [pc]].
Example gservices : set_services gcl gks = Some gsvcs.
Proof. vm_compute. reflexivity. Qed.

(** ** The documents *)
Definition idoc_of (kind name ns : string) (sp : dict) : yaml :=
  YMap [("apiVersion", YStr "networking.istio.io/v1alpha3"); ("kind", YStr kind); ("metadata", YMap [("name", YStr name); ("namespace", YStr ns)]); ("spec", YMap sp)].
Definition gwdoc (name kind host : string) : yaml :=
  idoc_of "Gateway" name "istio-system" [("selector", YMap [("istio", YStr kind)]);
    ("servers", YList [YMap [("port", YMap [("number", YInt 80); ("protocol", YStr "HTTP"); ("name", YStr "http")]); ("hosts", YList [YStr host])]])].
Definition to_host (h : string) (n : Z) : yaml := YMap [("destination", YMap [("host", YStr h); ("port", YMap [("number", YInt n)])])].
Definition hroute (m : dict) (h : string) (n : Z) : yaml := YMap [("match", YList [YMap m]); ("route", YList [to_host h n])].
Definition egw_host : string := "istio-egressgateway.istio-system.svc.cluster.local".
Definition gdocs := [gwdoc "out" "egressgateway" "h.com"; gwdoc "in" "ingressgateway" "*.org"].
(** Requests for h.com go to the egress gateway and from there to www.ibm.com; requests for *.org to paths below /foo with GET go from the ingress gateway to the service web. *)
Definition vs_out : yaml := idoc_of "VirtualService" "out" "ns" [("hosts", YList [YStr "h.com"]); ("gateways", YList [YStr "mesh"; YStr "istio-system/out"]);
  ("http", YList [hroute [("gateways", YList [YStr "mesh"])] egw_host 80; hroute [("gateways", YList [YStr "istio-system/out"])] "www.ibm.com" 443])].
Definition vs_in : yaml := idoc_of "VirtualService" "in" "ns" [("hosts", YList [YStr "*.org"]); ("gateways", YList [YStr "istio-system/in"]);
  ("http", YList [hroute [("uri", YMap [("prefix", YStr "/foo")]); ("method", YMap [("exact", YStr "GET")])] "web" 80])].
Definition vdocs := [vs_out; vs_in].
(** re.match for texts of capital letters, also with allowed_chars and a star after them. *)
Fixpoint capitals (t : list ascii) : list ascii :=
  match t with c :: t' => if andb (Nat.leb 65 (nat_of_ascii c)) (Nat.leb (nat_of_ascii c) 90) then c :: capitals t' else [] | [] => [] end.
Definition gre (t w : list ascii) : bool := starts_with (capitals t) w.

Definition ggs : list gateway := match istio_gateways std_dom gcl gdfa gdocs with Some (Some l) => l | _ => [] end.
Definition gvss : list vservice := match virtual_services std_dom gcl gks gsvcs gdfa gre vdocs with Some (Some l) => l | _ => [] end.
Definition gpols : list policy := match gateway_policies std_dom ex_reg gcl (Some ggs) (Some gvss) with Some l => l | None => [] end.
Example gparsed : istio_gateways std_dom gcl gdfa gdocs = Some (Some [Gw "istio-system/out" true [pa] (Some (VN false [Ivl 1 1])); Gw "istio-system/in" false [pb] (Some (VN false [Ivl 2 2]))]%Z) /\
  virtual_services std_dom gcl gks gsvcs gdfa gre vdocs = Some (Some
    [VS "ns/out" "ns" [VN false [Ivl 1 1]] ["mesh"; "istio-system/out"]
       [Route (Some true) [Dest egw_host [pa] (PortSet [Ivl 8080 8080] [] [])] None (Some [Ivl 0 8]) None ["mesh"];
        Route (Some false) [Dest "www.ibm.com" [dns] (PortSet [Ivl 443 443] [] [])] None (Some [Ivl 0 8]) None ["istio-system/out"]] [] [];
     VS "ns/in" "ns" [VN false [Ivl 2 2]] ["istio-system/in"]
       [Route (Some true) [Dest "web" [pc] (PortSet [] ["http"] [])] (Some (VN false [Ivl 3 3])) (Some [Ivl 0 0]) None []] [] []])%Z.
Proof. split; vm_compute; reflexivity. Qed.
(** A tls route with sniHosts outside of the hosts of the virtual service is ignored; with sniHosts among them it is not. *)
Definition vs_sni (h : string) : yaml := idoc_of "VirtualService" "sni" "ns" [("hosts", YList [YStr "h.com"]); ("gateways", YList [YStr "istio-system/in"]);
  ("tls", YList [YMap [("match", YList [YMap [("sniHosts", YList [YStr h])]]); ("route", YList [to_host "web" 80])]])].
Definition tls_count (h : string) : option nat := match virtual_services std_dom gcl gks gsvcs gdfa gre [vs_sni h] with Some (Some [vs]) => Some (List.length (vs_tls vs)) | _ => None end.
Example sni_outside : tls_count "*.org" = Some 0 /\ tls_count "h.com" = Some 1.
Proof. split; vm_compute; reflexivity. Qed.
Example gmade : istio_gateway_policies std_dom ex_reg gcl gks gsvcs gdfa gre gdocs vdocs = Some gpols /\
  map (fun P => (p_name P, p_selected P, (p_affects_in P, p_affects_eg P), p_action P)) gpols =
  [("Allow policy for virtual service ns/in, route number 1, gateway istio-system/in", [pb], (false, true), Allow);
   ("Allow policy for virtual service ns/out, route number 1, destination istio-egressgateway.istio-system.svc.cluster.local", [pa], (true, false), Allow);
   ("Allow policy for virtual service ns/out, route number 2, gateway istio-system/out", [pa], (false, true), Allow);
   ("Deny policy from mesh to DNS entries for virtual service ns/out, route number 2, gateway istio-system/out", [pb; pc], (false, true), Deny)].
Proof. split; vm_compute; reflexivity. Qed.

(** ** The hypotheses *)
Lemma one_host : forall a, (0 < a)%Z -> host_set (VN false [Ivl a a]).
Proof.
  intros a H. split; [apply valid6; lia|]. split; [exists a; apply one_code; reflexivity|]. intros X. apply one_code in X. lia.
Qed.
Lemma here : forall q, In q (cl_peers gcl) -> of_cluster gcl [q].
Proof. intros q H. split; intros p [<-|[]]; [apply (gcl_container q H)|exact H]. Qed.
Lemma ggs_good : NoDup (map gw_name ggs) /\ forall g, In g ggs -> gw_good gcl g.
Proof.
  unfold ggs. rewrite (proj1 gparsed). split; [cbn [map gw_name]; repeat constructor; cbn; intros H; repeat (destruct H as [H|H]; [discriminate|]); exact H|].
  intros g [<-|[<-|[]]]; (split; [apply one_host; lia|apply here; cbn; auto]).
Qed.
Lemma port_good : forall p, (1 <= p <= 65535)%Z -> ports_good (PortSet [Ivl p p] [] []).
Proof. intros p H. split; [|reflexivity]. split; [cbn; lia|]. intros z Hz. cbn [port_set] in Hz. rewrite mem_cons, mem_nil in Hz. cbn [lo hi] in Hz. lia. Qed.
Lemma some_methods : forall a b, (0 <= a <= b)%Z -> (b <= 8)%Z -> [Ivl a b] <> [] /\ ConnDict.in_range 0 8 [Ivl a b].
Proof. intros a b H1 H2. split; [discriminate|]. split; [cbn; lia|]. intros z Hz. rewrite mem_cons, mem_nil in Hz. cbn [lo hi] in Hz. lia. Qed.
Lemma gvss_good : forall vs, In vs gvss -> vs_good gcl vs.
Proof.
  unfold gvss. rewrite (proj2 gparsed). intros vs [<-|[<-|[]]].
  - split; [intros v [<-|[]]; apply one_host; lia|]. split; [discriminate|]. intros r [<-|[<-|[]]]; (split; [intros d [<-|[]]; split; [apply here; cbn; auto|apply port_good; lia]|]);
      (split; [exact I|]); (split; [apply some_methods; lia|exact I]).
  - split; [intros v [<-|[]]; apply one_host; lia|]. split; [discriminate|]. intros r [<-|[]]. split.
    + intros d [<-|[]]. split; [apply here; cbn; auto|]. split; [split; [exact I|intros z Hz; apply mem_nil in Hz; destruct Hz]|reflexivity].
    + split; [|split; [apply some_methods; lia|exact I]]. split; [apply small_valid; lia|]. exists 3%Z. split; [lia|apply one_code; reflexivity].
Qed.
Lemma gnonempty : ggs <> [] /\ gvss <> [].
Proof. unfold ggs, gvss. rewrite (proj1 gparsed), (proj2 gparsed). split; discriminate. Qed.
Lemma gpols_are : gateway_policies std_dom ex_reg gcl (Some ggs) (Some gvss) = Some gpols.
Proof.
  vm_compute. reflexivity.
Qed.
Lemma existsb_none : forall {X} (f : X -> bool) l, existsb f l = false -> forall x, In x l -> f x = false.
Proof. intros X f l H x Hx. destruct (f x) eqn:E; auto. assert (existsb f l = true) by (apply existsb_exists; exists x; auto). congruence. Qed.
(** ** C67 and C68 for these documents *)
Definition ex_C67 := C67_gateway_policies ex_reg ex_reg_ok gcl gcl_ok gcl_container gcl_ports ggs (proj1 ggs_good) (proj2 ggs_good) gvss gvss_good gpols (proj1 gnonempty) (proj2 gnonempty) gpols_are.
Definition ex_C68 := C68_from_pods ex_reg ex_reg_ok gcl gcl_ok gcl_container gcl_ports ggs (proj1 ggs_good) (proj2 ggs_good) gvss gvss_good gpols (proj1 gnonempty) (proj2 gnonempty) gpols_are.
(** What the layer allows: a TCP connection with the port, the method, the host and the path. *)
Definition glayer := all_allowed (layer_conns (cube_ops std_dom std_all ex_reg) LIstioGateway (cl_peers gcl) gpols only_all_allowed).
Definition gconn (s d : peer) (port me : Z) (h w : string) : dim -> Z := hconn (idx s) (idx d) 6 port me (gcode (text h)) (gcode (text w)).
Example glayer_allows :
  (* from the mesh to the egress gateway, from there to the external destination; no other way *)
  gconn pc pa 8080 0 "h.com" "/x" @ glayer /\ gconn pa dns 443 3 "h.com" "/x" @ glayer /\ ~ gconn pc dns 443 3 "h.com" "/x" @ glayer /\
  ~ gconn pa dns 443 3 "x.org" "/x" @ glayer /\ ~ gconn pc pa 80 0 "h.com" "/x" @ glayer /\
  (* from the ingress gateway to the service *)
  gconn pb pc 8080 0 "x.org" "/foo/y" @ glayer /\ ~ gconn pb pc 8080 2 "x.org" "/foo/y" @ glayer /\ ~ gconn pb pc 8080 0 "x.org" "/bar" @ glayer /\
  ~ gconn pb pc 8080 0 "h.com" "/foo" @ glayer.
Proof.
  assert (B : forallb (fun p => PropQueryCases.inside p glayer) [gconn pc pa 8080 0 "h.com" "/x"; gconn pa dns 443 3 "h.com" "/x"; gconn pb pc 8080 0 "x.org" "/foo/y"] = true /\
              existsb (fun p => PropQueryCases.inside p glayer) [gconn pc dns 443 3 "h.com" "/x"; gconn pa dns 443 3 "x.org" "/x"; gconn pc pa 80 0 "h.com" "/x";
                gconn pb pc 8080 2 "x.org" "/foo/y"; gconn pb pc 8080 0 "x.org" "/bar"; gconn pb pc 8080 0 "h.com" "/foo"] = false) by (split; vm_compute; reflexivity).
  revert B. generalize glayer. intros l [B1 B2]. rewrite forallb_forall in B1. pose proof (existsb_none _ _ B2) as B3.
  assert (Y : forall p, PropQueryCases.inside p l = true -> p @ l) by (intros p; apply PropQueryCases.inside_spec).
  assert (N : forall p, PropQueryCases.inside p l = false -> ~ p @ l) by (intros p E H; apply PropQueryCases.inside_spec in H; congruence).
  split; [apply Y, B1; left; reflexivity|]. split; [apply Y, B1; right; left; reflexivity|]. split; [apply N, B3; left; reflexivity|]. split; [apply N, B3; right; left; reflexivity|].
  split; [apply N, B3; do 2 right; left; reflexivity|]. split; [apply Y, B1; do 2 right; left; reflexivity|]. split; [apply N, B3; do 3 right; left; reflexivity|].
  split; [apply N, B3; do 4 right; left; reflexivity|]. apply N, B3. do 5 right. left. reflexivity.
Qed.

(** ** Where policies clash *)
(** The name of a policy holds the number of the route among the routes of its kind: an http route and a tcp route of one virtual service
    through the same gateway give two policies with the same name, and append_policy raises an exception. *)
Definition troute (h : string) (n : Z) : yaml := YMap [("route", YList [to_host h n])].
Definition vs_both : yaml := idoc_of "VirtualService" "both" "ns" [("hosts", YList [YStr "*.org"]); ("gateways", YList [YStr "istio-system/in"]);
  ("http", YList [hroute [] "web" 80]); ("tcp", YList [troute "web" 80])].
Theorem C67_policies_fit_refuted : ~ forall dfa re docs vdocs pols, istio_gateway_policies std_dom ex_reg gcl gks gsvcs dfa re docs vdocs = Some pols ->
  exists c', append_all (pcont_init) pols = Some c'.
Proof.
  intros H. destruct (istio_gateway_policies std_dom ex_reg gcl gks gsvcs gdfa gre gdocs [vs_both]) as [pols|] eqn:E; [|vm_compute in E; discriminate].
  destruct (H _ _ _ _ _ E) as (c' & X).
  assert (Y : match istio_gateway_policies std_dom ex_reg gcl gks gsvcs gdfa gre gdocs [vs_both] with Some pols => append_all (pcont_init) pols | None => Some (pcont_init) end = None) by (vm_compute; reflexivity).
  rewrite E in Y. congruence.
Qed.
(** The policies of the first documents have different names. *)
Example gpols_fit : exists c', append_all (pcont_init) gpols = Some c'.
Proof. destruct (append_all (pcont_init) gpols) eqn:E; [eauto|vm_compute in E; discriminate]. Qed.
Print Assumptions C67_gateway_policies.
Print Assumptions C68_from_pods.
Print Assumptions C68_from_addresses.
Print Assumptions C68_non_tcp.
Print Assumptions C68_only_through_the_gateway.
Print Assumptions C67_container_takes.
Print Assumptions C67_policies_fit_refuted.
