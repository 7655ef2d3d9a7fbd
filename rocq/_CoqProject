-Q theories Verif
theories/PyBase.v
theories/PipelineModel.v
theories/PipelineProofs.v
theories/PipelineLocal.v
theories/PipelineSpec.v
theories/PipelineSched.v
theories/PipelineMore.v
theories/PipelineDrain.v
theories/PipelineIO.v
theories/PipelineProps.v
theories/SymMapModel.v
theories/SymMapProofs.v
theories/SymMapProps.v
theories/CatalogModel.v
theories/CatalogSpec.v
theories/CatalogForest.v
theories/CatalogVisit.v
theories/CatalogMore.v
theories/CatalogProps.v
theories/FieldModel.v
theories/FieldProofs.v
theories/FieldProps.v
theories/CalendarModel.v
theories/CalendarSpec.v
theories/CalendarProofs.v
theories/CalendarDays.v
theories/CalendarTime.v
theories/CalendarProps.v
theories/ObsTimeModel.v
theories/ObsTimeProps.v
theories/RealTrig.v
theories/AngleModel.v
theories/AngleProofs.v
theories/AngleSexa.v
theories/AngleProps.v
theories/SphereModel.v
theories/SphereProofs.v
theories/RotProofs.v
theories/SphereProps.v
theories/RegistryModel.v
theories/RegistryProofs.v
theories/RegistryBFS.v
theories/RegistryProps.v
theories/AlgModel.v
theories/AlgProps.v
theories/AlgClip.v
theories/AlgClipProps.v
theories/FuncsModel.v
theories/FuncsProps.v
theories/FuncsMatch.v
theories/SiteModel.v
theories/SiteProps.v
theories/SiteNext.v
theories/CosmoModel.v
theories/CosmoProps.v
theories/CosmoDistModel.v
theories/CosmoDistProps.v
theories/CosmoDistInt.v
theories/PhotModel.v
theories/PhotProps.v
theories/PhotDist.v
theories/PhotTrans.v
theories/DerivedModel.v
theories/DerivedSpec.v
theories/DerivedProofs.v
theories/DerivedProps.v
theories/DerivedErr.v
theories/SpecModel.v
theories/SpecProps.v
theories/SpecObj.v
theories/SpecLineModel.v
theories/SpecResample.v
theories/SpecLines.v
theories/SpecExamples.v
theories/PubModel.v
theories/PubProps.v
theories/PubFile.v
theories/PubComments.v
theories/PubDecl.v
theories/PubTree.v
theories/ProfModel.v
theories/ProfBlackbody.v
theories/ProfMass.v
theories/ProfProj.v
theories/ProfHalo.v
theories/ProfMisc.v
theories/CmdModel.v
theories/CmdDict.v
theories/CmdOffsets.v
theories/CmdValues.v
theories/CmdSettings.v
theories/EphModel.v
theories/EphState.v
theories/EphKepler.v
theories/EphOrbit.v
theories/EphEarth.v
theories/IoModel.v
theories/IoData.v
theories/IoColumns.v
theories/IoFiles.v
theories/CcdModel.v
theories/CcdRegion.v
theories/CcdEdit.v
theories/CcdMore.v
theories/CcdScale.v
theories/CcdClip.v
theories/CcdProcModel.v
theories/CcdBias.v
theories/CcdCombine.v
theories/CcdReject.v
theories/CcdShift.v
theories/AngStrModel.v
theories/AngStrRe.v
theories/AngStrRead.v
theories/AngStrPrint.v
theories/StatModel.v
theories/StatRobust.v
theories/StatMoments.v
theories/StatBins.v
theories/PcaModel.v
theories/PcaProof.v
theories/PcaUse.v
theories/RegModel.v
theories/RegProof.v
theories/RegGet.v
theories/TipsyModel.v
theories/TipsyProof.v
theories/VotModel.v
theories/VotSpec.v
theories/VotProof.v
theories/VotRun.v
theories/VotAny.v
theories/TabModel.v
theories/TabCodes.v
theories/TabText.v
theories/TabLog.v
theories/CfgModel.v
theories/CfgRx.v
theories/CfgLine.v
theories/CfgRead.v
theories/CfgFile.v
theories/CfgEdit.v
theories/ProjModel.v
theories/ProjProof.v
theories/ProjPath.v
theories/CfgWhole.v
theories/GhModel.v
theories/GhOrtho.v
theories/GhProof.v
theories/SmModel.v
theories/SmProof.v
theories/LoadModel.v
theories/LoadProof.v
theories/LoadDeimos.v
theories/ZfModel.v
theories/ZfProof.v
theories/AxModel.v
theories/AxProof.v
theories/FeatModel.v
theories/FeatProof.v
theories/SexModel.v
theories/SexProof.v
theories/NoiseModel.v
theories/NoiseProof.v
theories/PlotModel.v
theories/PlotProof.v
theories/TxtModel.v
theories/TxtProof.v
theories/RectModel.v
theories/RectProof.v
theories/FrameModel.v
theories/FrameProof.v
theories/FrameEpoch.v
theories/FrameEx.v
theories/FrameTie.v
theories/FrameVia.v
theories/ExtModel.v
theories/ExtProof.v
theories/ExtSpec.v
theories/DustModel.v
theories/DustProof.v
theories/BandModel.v
theories/BandProof.v
theories/BandFlux.v
theories/FitsModel.v
theories/FitsProof.v
theories/FitsHist.v
theories/ImphModel.v
theories/ImphProof.v
theories/ImphEllipse.v
theories/SrcModel.v
theories/SrcProof.v
theories/FnModel.v
theories/FnProof.v
theories/AnModel.v
theories/AnProof.v
theories/AnCatalog.v
theories/SnModel.v
theories/SnProof.v
theories/SedModel.v
theories/SedProof.v
theories/ExModel.v
theories/ExProof.v
theories/PlModel.v
theories/PlProof.v
theories/GridModel.v
theories/GridProof.v
theories/CtModel.v
theories/CtProof.v
theories/IndModel.v
theories/IndProof.v
