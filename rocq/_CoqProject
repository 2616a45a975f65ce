-Q theories Verif
theories/Base.v
theories/HeapModel.v
theories/HeapProofs.v
theories/HeapRuns.v
theories/PropHeap.v
theories/MSortModel.v
theories/MSortProofs.v
theories/PropMSort.v
theories/DDModel.v
theories/DDSpec.v
theories/DDFrame.v
theories/DDInv.v
theories/DDRestricted.v
theories/DDLayer.v
theories/DDExpand.v
theories/DDRestricted2.v
theories/DDMerge.v
theories/DDRelaxed.v
theories/DDTopo.v
theories/DDPasses.v
theories/DDRelaxed2.v
theories/TabModel.v
theories/KnapModel.v
theories/KnapProofs.v
theories/DDExamples.v
theories/PropRestricted.v
theories/DDRelaxedEnd.v
theories/PropRelaxed.v
theories/PassesEx.v
theories/PropPasses.v
theories/DDExact.v
theories/PropExact.v
theories/PropReuse.v
theories/DDWide.v
theories/SearchModel.v
theories/SearchProofs.v
theories/SearchEx.v
theories/PropSearch.v
theories/KnapEnd.v
theories/PropKnap.v
theories/QueueModel.v
theories/QueueProofs.v
theories/QueueRuns.v
theories/PropQueue.v
theories/BitModel.v
theories/BitProofs.v
theories/PropBits.v
theories/SetModel.v
theories/SetSpec.v
theories/SetProofs.v
theories/GSetProofs.v
theories/SetEnd.v
theories/PropSets.v
theories/SubModel.v
theories/SubProofs.v
theories/SubEnd.v
theories/PropSub.v
theories/HashModel.v
theories/HashSpec.v
theories/HashProofs.v
theories/HashEnd.v
theories/PropHash.v
theories/UFModel.v
theories/UFSpec.v
theories/UFProofs.v
theories/UFEnd.v
theories/PropUF.v
theories/VecModel.v
theories/VecSpec.v
theories/VecProofs.v
theories/VecEnd.v
theories/PropVec.v
theories/PoolModel.v
theories/PoolSpec.v
theories/PoolProofs.v
theories/PropPool.v
theories/ListModel.v
theories/ListSpec.v
theories/ListProofs.v
theories/PropList.v
theories/ArcModel.v
theories/ArcSpec.v
theories/ArcProofs.v
theories/PropArc.v
theories/MatModel.v
theories/MatSpec.v
theories/MatProofs.v
theories/PropMat.v
theories/NdaModel.v
theories/NdaSpec.v
theories/NdaProofs.v
theories/PropNda.v
theories/TspModel.v
theories/TspSpec.v
theories/TspProofs.v
theories/TspEnd.v
theories/PropTsp.v
theories/MispModel.v
theories/MispSpec.v
theories/MispProofs.v
theories/MispInst.v
theories/MispFirst.v
theories/MispEnd.v
theories/PropMisp.v
theories/RulerModel.v
theories/RulerSpec.v
theories/RulerProofs.v
theories/RulerEnd.v
theories/RulerLb.v
theories/RulerTop.v
theories/PropRuler.v
theories/SearchDyn.v
theories/ColorModel.v
theories/ColorSpec.v
theories/ColorProofs.v
theories/ColorTop.v
theories/ColorEnd.v
theories/PropDyn.v
theories/PropColor.v
theories/TourModel.v
theories/TourSpec.v
theories/TourBound.v
theories/TourProofs.v
theories/TourTop.v
theories/TourRoot.v
theories/TourEnd.v
theories/PropTour.v
theories/ToyModel.v
theories/ToySpec.v
theories/ToyProofs.v
theories/ToyTwo.v
theories/ToyFoo.v
theories/ToyEnd.v
theories/ToyRuns.v
theories/PropToy.v
theories/SearchLoc.v
theories/LagModel.v
theories/LagSpec.v
theories/LagClique.v
theories/LagProofs.v
theories/LagEnd.v
theories/LagTight.v
theories/PropLag.v
theories/DDRoot.v
theories/SearchSeen.v
theories/SearchCut.v
theories/ColorCut.v
theories/SeenEx.v
theories/PropSeen.v
theories/ReadModel.v
theories/ReadSpec.v
theories/ReadProofs.v
theories/ReadTerm.v
theories/ReadRun.v
theories/ReadTsp.v
theories/ReadEx.v
theories/PropRead.v
theories/ProgModel.v
theories/ProgSpec.v
theories/ProgProofs.v
theories/ProgKnap.v
theories/ProgTsp.v
theories/ProgColor.v
theories/ProgEx.v
theories/PropProg.v
theories/ReadTwModel.v
theories/ReadTwSpec.v
theories/ReadTwProofs.v
theories/ReadTwEx.v
theories/PropTw.v
theories/RoundModel.v
theories/RoundProofs.v
theories/RoundSearch.v
theories/RoundEx.v
theories/PropRound.v
theories/StackModel.v
theories/StackProofs.v
theories/PropStack.v
theories/RoundDyn.v
theories/ProgRound.v
theories/PropProgRound.v
theories/ApartProofs.v
theories/SizeProofs.v
theories/SizeSearch.v
theories/SizeEx.v
theories/SizeTop.v
theories/PropSize.v
theories/SaveModel.v
theories/SaveProofs.v
theories/SaveEnd.v
theories/SaveEx.v
theories/PropSave.v
theories/ProgressModel.v
theories/ProgressProofs.v
theories/ProgressEx.v
theories/PropProgress.v
theories/SuiteEx.v
theories/NoMerge.v
theories/RulerSearch.v
theories/SoftEq.v
theories/SoftSearch.v
theories/RulerSoft.v
theories/RulerLoss.v
theories/RulerFan.v
theories/PropRulerSearch.v
theories/OnceSearch.v
theories/MidSearch.v
theories/PropMidSearch.v
theories/MidLbSearch.v
theories/PropMidLbSearch.v
theories/HandleModel.v
theories/HandleSpec.v
theories/HandleProofs.v
theories/PropHandle.v
theories/ClockModel.v
theories/ClockProofs.v
theories/ClockColor.v
theories/PropClock.v
