-Q theories Verif
theories/Model/Base.v
theories/Model/Base64.v
theories/Spec/Base64Spec.v
theories/Proof/Tac.v
theories/Proof/Base64Proof.v
theories/Props/Base64Props.v
theories/Model/Convert.v
theories/Spec/Utf8Spec.v
theories/Proof/ConvertProof.v
theories/Props/ConvertProps.v
theories/Model/Chars.v
theories/Spec/XmlChars.v
theories/Proof/CharsProof.v
theories/Model/Text.v
theories/Spec/TextSpec.v
theories/Proof/TextProof.v
theories/Props/TextProps.v
theories/Model/Uri.v
theories/Spec/UriSpec.v
theories/Proof/UriProof.v
theories/Proof/UriResolveProof.v
theories/Props/UriProps.v
theories/Model/Containers.v
theories/Model/NsSupport.v
theories/Spec/NsSpec.v
theories/Proof/ContainersProof.v
theories/Proof/NsProof.v
theories/Props/NsProps.v
theories/Model/Attrs.v
theories/Model/XmlBase.v
theories/Spec/XmlBaseSpec.v
theories/Proof/XmlBaseProof.v
theories/Spec/AttrsSpec.v
theories/Proof/AttrsProof.v
theories/Props/SaxDataProps.v
theories/Model/Sax.v
theories/Spec/SaxSpec.v
theories/Proof/SaxProof.v
theories/Model/Writer.v
theories/Spec/XmlRead.v
theories/Spec/WriterSpec.v
theories/Proof/XmlReadProof.v
theories/Proof/WriterProof.v
theories/Props/FilterProps.v
theories/Model/Dom.v
theories/Spec/DomSpec.v
theories/Proof/DomProof.v
theories/Proof/DomFinite.v
theories/Proof/DomProof2.v
theories/Proof/DomProof3.v
theories/Props/DomProps.v
theories/Model/DomText.v
theories/Spec/DomTextSpec.v
theories/Proof/DomTextProof.v
theories/Model/TagList.v
theories/Spec/TagListSpec.v
theories/Proof/TagListProof.v
theories/Proof/TagListProof2.v
theories/Props/DomTextProps.v
theories/Props/TagListProps.v
theories/Model/AttrMap.v
theories/Spec/AttrMapSpec.v
theories/Proof/AttrMapProof.v
theories/Props/AttrMapProps.v
theories/Model/TreeWalker.v
theories/Spec/TreeWalkerSpec.v
theories/Proof/TreeWalkerProof.v
theories/Props/TreeWalkerProps.v
theories/Model/Events.v
theories/Spec/EventsSpec.v
theories/Proof/EventsProof.v
theories/Props/EventsProps.v
theories/Model/Handles.v
theories/Spec/HandlesSpec.v
theories/Proof/HandlesProof.v
theories/Props/HandlesProps.v
theories/Model/Stream.v
theories/Spec/NsTree.v
theories/Proof/StreamProof.v
theories/Props/StreamProps.v
theories/Model/SaxToDom.v
theories/Spec/SaxTree.v
theories/Proof/SaxToDomProof.v
theories/Props/SaxToDomProps.v
theories/Model/XNode.v
theories/Spec/XOrder.v
theories/Proof/XOrderProof.v
theories/Props/XOrderProps.v
theories/Model/XAxis.v
theories/Spec/XAxisSpec.v
theories/Proof/XAxisProof.v
theories/Proof/XAxisWalks.v
theories/Proof/XAxisMore.v
theories/Proof/XAxisSimple.v
theories/Props/XAxisProps.v
theories/Model/XNodeSet.v
theories/Spec/XNodeSetSpec.v
theories/Proof/XNodeSetProof.v
theories/Props/XNodeSetProps.v
theories/Model/XCompare.v
theories/Spec/XCompareSpec.v
theories/Proof/XCompareProof.v
theories/Props/XCompareProps.v
theories/Model/XNumber.v
theories/Spec/XNumberSpec.v
theories/Proof/XNumberProof.v
theories/Props/XNumberProps.v
theories/Model/XString.v
theories/Spec/XStringSpec.v
theories/Proof/XIntProof.v
theories/Proof/XStringProof.v
theories/Props/XStringProps.v
theories/Model/XStep.v
theories/Spec/XStepSpec.v
theories/Proof/XStepProof.v
theories/Props/XStepProps.v
theories/Model/XEval.v
theories/Spec/XEvalSpec.v
theories/Proof/XEvalProof.v
theories/Props/XEvalProps.v
theories/Model/Precedence.v
theories/Spec/PrecedenceSpec.v
theories/Proof/PrecedenceProof.v
theories/Props/PrecedenceProps.v
theories/Model/Template.v
theories/Spec/TemplateSpec.v
theories/Proof/TemplateProof.v
theories/Proof/TemplatePriority.v
theories/Props/TemplateProps.v
theories/Model/XSort.v
theories/Spec/XSortSpec.v
theories/Proof/XSortProof.v
theories/Props/XSortProps.v
theories/Model/XOutput.v
theories/Spec/XOutputSpec.v
theories/Proof/XOutputProof.v
theories/Props/XOutputProps.v
theories/Proof/XOutputText.v
theories/Proof/XOutputNames.v
theories/Proof/XOutputPlain.v
theories/Model/XVars.v
theories/Spec/XVarsSpec.v
theories/Proof/XVarsProof.v
theories/Proof/XVarsGlobals.v
theories/Props/XVarsProps.v
theories/Model/XKeys.v
theories/Spec/XKeysSpec.v
theories/Proof/XKeysProof.v
theories/Props/XKeysProps.v
theories/Proof/WriterSkip.v
theories/Model/HtmlSchema.v
theories/Model/Taggle.v
theories/Model/HtmlScanner.v
theories/Spec/TaggleSpec.v
theories/Proof/TaggleProof.v
theories/Proof/TaggleProof2.v
theories/Proof/TaggleProof3.v
theories/Proof/HtmlScannerProof.v
theories/Props/TaggleProps.v
theories/Proof/TaggleQuiet.v
theories/Proof/TaggleText.v
theories/Proof/TaggleDoctype.v
theories/Props/TaggleTextProps.v
theories/Model/XSink.v
theories/Spec/XSinkSpec.v
theories/Spec/XResultSpec.v
theories/Proof/XSinkProof.v
theories/Proof/XSinkRead.v
theories/Props/XSinkProps.v
theories/Proof/XSinkResult.v
theories/Proof/XSinkTree.v
theories/Model/XRun.v
theories/Spec/XRunSpec.v
theories/Proof/XRunProof.v
theories/Proof/XRunComplete.v
theories/Proof/XRunEnds.v
theories/Proof/XRunUnique.v
theories/Props/XRunProps.v
theories/Model/XMatch.v
theories/Spec/XMatchSpec.v
theories/Proof/XMatchProof.v
theories/Props/XMatchProps.v
theories/Model/XParse.v
theories/Spec/XParseSpec.v
theories/Proof/XParsePeg.v
theories/Proof/XParseToken.v
theories/Proof/XParseTree.v
theories/Proof/XParseStep.v
theories/Proof/XParseProof.v
theories/Props/XParseProps.v
theories/Proof/XParseMeans.v
theories/Spec/XAvtSpec.v
theories/Proof/XAvtProof.v
theories/Props/XAvtProps.v
theories/Model/XPattern.v
theories/Spec/XPatternSpec.v
theories/Proof/XPatternProof.v
theories/Props/XPatternProps.v
theories/Model/XSheet.v
theories/Spec/XSheetSpec.v
theories/Proof/XSheetProof.v
theories/Spec/XSheetGrammar.v
theories/Proof/XSheetGrammarProof.v
theories/Props/XSheetProps.v
theories/Model/Wrapper.v
theories/Spec/WrapperSpec.v
theories/Proof/WrapperProof.v
theories/Props/WrapperProps.v
theories/Model/ContentText.v
theories/Spec/ContentTextSpec.v
theories/Proof/ContentTextProof.v
theories/Props/ContentTextProps.v
theories/Model/Garden.v
theories/Spec/GardenSpec.v
theories/Proof/GardenProof.v
theories/Proof/GardenEnds.v
theories/Props/GardenProps.v
theories/Model/Clone.v
theories/Spec/CloneSpec.v
theories/Proof/CloneProof.v
theories/Proof/CloneDoc.v
theories/Props/CloneProps.v
theories/Model/XInclude.v
theories/Spec/XIncludeSpec.v
theories/Proof/XIncludeProof.v
theories/Proof/XIncludeEnds.v
theories/Proof/XIncludeSheets.v
theories/Props/XIncludeProps.v
theories/Model/ConvertIo.v
theories/Spec/ConvertIoSpec.v
theories/Proof/ConvertIoProof.v
theories/Proof/ConvertFacets.v
theories/Props/ConvertIoProps.v
theories/Model/StreamHandle.v
theories/Spec/StreamHandleSpec.v
theories/Proof/StreamHandleProof.v
theories/Props/StreamHandleProps.v
theories/Model/Socket.v
theories/Spec/SocketSpec.v
theories/Proof/SocketProof.v
theories/Props/SocketProps.v
theories/Model/Resolver.v
theories/Spec/ResolverSpec.v
theories/Proof/ResolverProof.v
theories/Props/ResolverProps.v
theories/Model/XFunctions.v
theories/Spec/XFunctionsSpec.v
theories/Proof/XFunctionsProof.v
theories/Props/XFunctionsProps.v
theories/Model/Ids.v
theories/Spec/IdsSpec.v
theories/Proof/IdsProof.v
theories/Props/IdsProps.v
theories/Model/External.v
theories/Spec/ExternalSpec.v
theories/Proof/ExternalProof.v
theories/Props/ExternalProps.v
theories/Model/FilterChain.v
theories/Spec/FilterChainSpec.v
theories/Proof/FilterChainProof.v
theories/Props/FilterChainProps.v
theories/Model/XKeyPattern.v
theories/Spec/XKeyPatternSpec.v
theories/Proof/XKeyPatternProof.v
theories/Props/XKeyPatternProps.v
theories/Model/ErrorText.v
theories/Spec/ErrorTextSpec.v
theories/Proof/ErrorTextProof.v
theories/Props/ErrorTextProps.v
theories/Spec/XSafeSpec.v
theories/Proof/XSafeProof.v
theories/Props/XSafeProps.v
theories/Model/EventObject.v
theories/Spec/EventObjectSpec.v
theories/Proof/EventObjectProof.v
theories/Props/EventObjectProps.v
theories/Model/NormalizeAll.v
theories/Spec/NormalizeAllSpec.v
theories/Proof/NormalizeAllProof.v
theories/Props/NormalizeAllProps.v
theories/Model/Locator.v
theories/Spec/LocatorSpec.v
theories/Proof/LocatorProof.v
theories/Props/LocatorProps.v
