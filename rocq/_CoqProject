-Q theories Verif
theories/IntervalModel.v
theories/IntervalFacts.v
theories/PropInterval.v
theories/HyperModel.v
theories/HyperFacts.v
theories/HyperOps.v
theories/HyperDims.v
theories/HyperTop.v
theories/HyperContain.v
theories/HyperInst.v
theories/PropHyperCube.v
theories/TextModel.v
theories/TextFacts.v
theories/PortProtoModel.v
theories/PortProtoFacts.v
theories/PropPorts.v
theories/ConnModel.v
theories/ConnFacts.v
theories/PropConn.v
theories/PeerModel.v
theories/PeerFacts.v
theories/PeerSetFacts.v
theories/PropPeers.v
theories/PolicyModel.v
theories/PolicyLaws.v
theories/PolicyFacts.v
theories/LayerFacts.v
theories/OrderFacts.v
theories/ConnAlg.v
theories/StdDims.v
theories/PropLayers.v
theories/QueryModel.v
theories/QueryFacts.v
theories/QuerySpecs.v
theories/QueryAlg.v
theories/SemDiff.v
theories/QueryOne.v
theories/PropQueries.v
theories/PropQueryCases.v
theories/RunnerModel.v
theories/PropRunner.v
theories/PropExit.v
theories/YamlModel.v
theories/ClusterModel.v
theories/K8sParserModel.v
theories/SelectorFacts.v
theories/ConnDict.v
theories/NamedExcl.v
theories/PropSelectors.v
theories/K8sParserFacts.v
theories/PropK8sParser.v
theories/CalicoSelectorModel.v
theories/CalicoSelectorFacts.v
theories/CalicoSelectorGram.v
theories/CalicoSelectorSets.v
theories/PropCalicoSelectors.v
theories/CalicoParserModel.v
theories/CalicoParserFacts.v
theories/CalicoRuleFacts.v
theories/PropCalicoParser.v
theories/PropCalicoCases.v
theories/IstioValueModel.v
theories/PropIstioValues.v
theories/IstioParserModel.v
theories/IstioParserFacts.v
theories/IstioRuleFacts.v
theories/PropIstioParser.v
theories/PropIstioCases.v
theories/ServiceModel.v
theories/PropServices.v
theories/SidecarModel.v
theories/SidecarFacts.v
theories/SidecarEgressFacts.v
theories/PropSidecar.v
theories/PropSidecarCases.v
theories/TopologyModel.v
theories/TopologyFacts.v
theories/TopologyDocs.v
theories/TopologyLoad.v
theories/PropTopology.v
theories/PropTopologyCases.v
theories/PropFromDocuments.v
theories/PropFromDocumentsCases.v
theories/IngressModel.v
theories/IngressWords.v
theories/PropIngressPaths.v
theories/GatewayFacts.v
theories/IngressFacts.v
theories/IngressDocs.v
theories/PropIngress.v
theories/PropIngressLayer.v
theories/PropIngressCases.v
theories/FWModel.v
theories/FWFacts.v
theories/FWAlg.v
theories/FWLabels.v
theories/PropFW.v
theories/PropFWCases.v
theories/FWTextModel.v
theories/FWTextFacts.v
theories/PropFWText.v
theories/GraphModel.v
theories/GraphFacts.v
theories/GraphGroups.v
theories/GraphDot.v
theories/PropGraph.v
theories/PropGraphCases.v
theories/MapModel.v
theories/MapFacts.v
theories/PropMap.v
theories/PropMapCases.v
theories/ConnTextModel.v
theories/ConnTextFacts.v
theories/PropConnText.v
theories/IpTextModel.v
theories/IpTextFacts.v
theories/PropIpText.v
theories/ConnListModel.v
theories/ConnListFacts.v
theories/PropConnList.v
theories/PropConnListCases.v
theories/IstioGwModel.v
theories/IstioGwFacts.v
theories/PropIstioGw.v
theories/PropIstioGwCases.v
theories/IstioGwDocs.v
theories/IstioVsDocs.v
theories/IstioVsRoutes.v
theories/PropIstioGwDocs.v
theories/PropIstioGwDocsCases.v
theories/SanityModel.v
theories/SanityFacts.v
theories/PropSanity.v
theories/PropSanityCases.v
theories/MinDfaModel.v
theories/MinDfaFacts.v
theories/MinDfaText.v
theories/PropMinDfa.v
theories/PropMinDfaCases.v
theories/ExplModel.v
theories/ExplFacts.v
theories/ExplLayers.v
theories/ExplRun.v
theories/PropExpl.v
theories/PropExplCases.v
theories/ExplAll.v
theories/PropExplAll.v
theories/PropExplAllCases.v
theories/OutModel.v
theories/OutFacts.v
theories/PropOut.v
theories/PropOutText.v
theories/PropOutDict.v
theories/PropOutCases.v
theories/DiffTextModel.v
theories/PropDiffText.v
theories/DiffListModel.v
theories/PropDiffList.v
theories/PropDiffEquiv.v
