-Q theories Verif
theories/Base.v
theories/SplitModel.v
theories/SplitProofs.v
theories/SplitProps.v
theories/SparseModel.v
theories/SparseProofs.v
theories/DatasetModel.v
theories/DatasetSpec.v
theories/DatasetProofs.v
theories/PruneProofs.v
theories/DatasetMore.v
theories/DatasetProps.v
theories/PartModel.v
theories/PartSpec.v
theories/PartProofs.v
theories/PartLinks.v
theories/PartCols.v
theories/PartProps.v
theories/EvalModel.v
theories/EvalSpec.v
theories/EvalProofs.v
theories/EvalGroups.v
theories/EvalProps.v
theories/VecModel.v
theories/VecSpec.v
theories/VecProofs.v
theories/VecMore.v
theories/VecProps.v
theories/RealModel.v
theories/RealProofs.v
theories/RealProps.v
theories/CvbModel.v
theories/CvbSpec.v
theories/CvbProofs.v
theories/CvbMore.v
theories/CvbTokens.v
theories/CvbProps.v
theories/GibbsModel.v
theories/GibbsSpec.v
theories/GibbsProofs.v
theories/GibbsMore.v
theories/GibbsRuns.v
theories/GibbsDist.v
theories/GibbsProps.v
theories/SkModel.v
theories/SkProofs.v
theories/SkProps.v
theories/MixModel.v
theories/MixProofs.v
theories/MixProps.v
theories/SkScore.v
theories/RunModel.v
theories/RunProps.v
theories/StrModel.v
theories/StrProps.v
theories/SelModel.v
theories/SelProps.v
theories/TableModel.v
theories/TableProps.v
theories/VbModel.v
theories/VbProofs.v
theories/VbProps.v
theories/LinkModel.v
theories/LinkProps.v
theories/RtmModel.v
theories/RtmProps.v
theories/VbField.v
theories/RtmField.v
theories/DmrModel.v
theories/DmrProofs.v
theories/DmrProps.v
theories/DmrReal.v
theories/CtmModel.v
theories/CtmProofs.v
theories/CtmProps.v
theories/StmModel.v
theories/StmProofs.v
theories/StmProps.v
theories/LroModel.v
theories/LroProps.v
theories/FloatModel.v
theories/FloatProofs.v
theories/FloatProps.v
theories/DigammaWitness.v
theories/VbFastModel.v
theories/VbFastProofs.v
theories/VbFastProps.v
theories/MtmModel.v
theories/MtmProofs.v
theories/MtmProps.v
theories/BouchModel.v
theories/BouchProofs.v
theories/BouchProps.v
theories/FakeModel.v
theories/FakeProofs.v
theories/FakeProps.v
theories/UvModel.v
theories/UvProps.v
theories/HyperModel.v
theories/HyperProps.v
theories/BoundSpec.v
theories/BoundProofs.v
theories/GammaProofs.v
theories/GammaWitness.v
theories/BoundModel.v
theories/BoundMore.v
theories/BoundCvb.v
theories/BoundProps.v
theories/StationSpec.v
theories/StationProofs.v
theories/StationGibbs.v
theories/StationProps.v
theories/MixBoundSpec.v
theories/MixBoundProofs.v
theories/MixBoundProps.v
theories/MomModel.v
theories/MomSpec.v
theories/MomProofs.v
theories/MomLaw.v
theories/MomRuns.v
theories/MomProps.v
theories/OffModel.v
theories/OffSpec.v
theories/OffProofs.v
theories/OffMore.v
theories/OffProps.v
theories/DmrLawSpec.v
theories/DmrLaw.v
theories/DmrLawProps.v
theories/DmrUpdate.v
theories/CliModel.v
theories/CliProps.v
theories/ReshapeModel.v
theories/ReshapeProofs.v
theories/ReshapeProps.v
theories/ArxivModel.v
theories/ArxivProofs.v
theories/ArxivProps.v
theories/CopyModel.v
theories/CopyProps.v
theories/NumtextModel.v
theories/NumtextProps.v
theories/BohBoundModel.v
theories/BohBoundProps.v
theories/LinkBoundModel.v
theories/LinkBoundProps.v
theories/StartModel.v
theories/StartProps.v
theories/EstModel.v
theories/EstProps.v
theories/WrapModel.v
theories/WrapProps.v
theories/DebugModel.v
theories/DebugProps.v
theories/OpsModel.v
theories/OpsProps.v
theories/TagModel.v
theories/TagProps.v
theories/ReportModel.v
theories/ReportProps.v
theories/SymProps.v
theories/EarlyModel.v
theories/EarlyProps.v
theories/VecyModel.v
theories/VecyProofs.v
theories/VecyProps.v
theories/UyvModel.v
theories/UyvProofs.v
theories/UyvProps.v
theories/OldModel.v
theories/OldProofs.v
theories/OldProps.v
theories/OldBoundModel.v
theories/OldBoundProps.v
theories/UyModel.v
theories/UyProps.v
theories/OldVecyModel.v
theories/OldVecyProps.v
theories/YvBoundModel.v
theories/YvBoundProps.v
theories/MtmBoundModel.v
theories/MtmBoundProps.v
theories/UyvBoundModel.v
theories/UyvBoundProps.v
theories/UyBoundModel.v
theories/UyBoundProps.v
theories/LeftModel.v
theories/LeftProps.v
theories/PureModel.v
theories/PureProps.v
theories/BohReportProps.v
theories/LinkReportProps.v
