-Q theories Verif

theories/Num.v
theories/Py.v
theories/Validation.v
theories/Utilities.v
theories/Objects.v
theories/Slope.v
theories/Planes.v
theories/Analysis.v
theories/Dynamic.v
theories/Api.v
theories/Plot.v
theories/Web.v
theories/Browser.v
theories/RealNum.v
theories/FloatNum.v
theories/RealFacts.v
theories/MonadFacts.v
theories/ListFacts.v
theories/KeepFacts.v
theories/SlopeFacts.v
theories/MaterialFacts.v
theories/Invariant.v
theories/History.v
theories/Spec.v
theories/EditFacts.v
theories/GroundFacts.v
theories/LayerFacts.v
theories/Demo.v
theories/EditMore.v
theories/LayerMore.v
theories/AngleFacts.v
theories/PropsEdit.v
theories/PropsLayers.v
theories/TwoSlopes.v
theories/LoadFacts.v
theories/DynFacts.v
theories/FitFacts.v
theories/FloatWitness.v
theories/OptionFacts.v
theories/SearchFacts.v
theories/AnyFacts.v
theories/BinaryFacts.v
theories/DynMore.v
theories/CircleFacts.v
theories/PlaneFacts.v
theories/SoilFacts.v
theories/MatInv.v
theories/ViewFacts.v
theories/FloatMore.v
theories/FloatEdge.v
theories/DemoCircle.v
theories/SliceFacts.v
theories/FosFacts.v
theories/GridFacts.v
theories/FaceFacts.v
theories/FosMore.v
theories/StrengthFacts.v
theories/ScaleFacts.v
theories/FosTotal.v
theories/WetFacts.v
theories/FosCode.v
theories/FloatFos.v
theories/CohesiveFacts.v
theories/LinearFacts.v
theories/SoftFacts.v
theories/TextFacts.v
theories/PlotFacts.v
theories/LayerArea.v
theories/FigureFacts.v
theories/GrowFacts.v
theories/DrawFacts.v
theories/ShowFacts.v
theories/PictureFacts.v
theories/HitFacts.v
theories/WeakFacts.v
theories/FloatPlot.v
theories/BrowserFacts.v
theories/SessionFacts.v
theories/FormFacts.v
theories/FormMore.v
theories/PageFacts.v
theories/FirstFacts.v
theories/Screen.v
theories/Inputs.v
theories/ScreenFacts.v
theories/InputFacts.v
theories/ShareFacts.v
theories/StaleFacts.v
theories/Report.v
theories/ReportFacts.v
theories/PropsLoads.v
theories/PropsResults.v
theories/PropsDynamic.v
theories/PropsCircles.v
theories/PropsSoil.v
theories/PropsFos.v
theories/OutlineFacts.v
theories/PropsPlot.v
theories/PropsWeb.v
theories/PropsBinary.v
theories/PropsScreen.v
theories/PropsInput.v
theories/PropsShare.v
theories/PropsReport.v
theories/RoundFacts.v
theories/PropsRound.v
theories/Version.v
theories/VersionFacts.v
theories/PropsVersion.v
theories/ReportedFacts.v
theories/PropsReported.v
theories/LayerAny.v
theories/LoadAny.v
theories/PropsLayerAny.v
theories/SizeFacts.v
theories/Twin.v
theories/Similar.v
theories/PropsSize.v
theories/WaterLevel.v
theories/FloatLevel.v
theories/PropsLevel.v
theories/MidSum.v
theories/Tame.v
theories/SliceLimit.v
theories/CutFacts.v
theories/CutLimit.v
theories/CutCode.v
theories/CutOneWay.v
theories/PropsCut.v
theories/ArcFacts.v
theories/PropsArc.v
theories/Surcharge.v
theories/SurchargeCode.v
theories/SurchargeDemo.v
theories/FloatSurcharge.v
theories/PropsSurcharge.v
theories/SplitFacts.v
theories/SplitDemo.v
theories/FloatSplit.v
theories/PropsSplit.v
theories/Fellenius.v
theories/FelleniusCode.v
theories/FloatFellenius.v
theories/PropsFellenius.v
theories/CloseFacts.v
theories/CloseCode.v
theories/FloatClose.v
theories/PropsClose.v
theories/ExactLimit.v
theories/PropsExact.v
theories/Migrate.v
theories/MigrateFacts.v
theories/PropsMigrate.v
theories/OrderFacts.v
theories/FloatOrder.v
theories/PropsOrder.v
theories/Release.v
theories/ReleaseFacts.v
theories/Cli.v
theories/CliFacts.v
theories/PropsRelease.v
theories/PropsCli.v
theories/AcceptFacts.v
theories/PropsAccept.v
theories/UndoFacts.v
theories/FloatUndo.v
theories/PropsUndo.v
theories/RoundTheory.v
theories/NearFacts.v
theories/SumNear.v
theories/WeightNear.v
theories/FosNear.v
theories/CircleNear.v
theories/WaterNear.v
theories/BishopNear.v
theories/SliceNear.v
theories/SinNear.v
theories/AtanNear.v
theories/AngleNear.v
theories/TanNear.v
theories/FactorNear.v
theories/TurnNear.v
theories/CrossNear.v
theories/EndsNear.v
theories/StartNear.v
theories/RiseNear.v
theories/EntryNear.v
theories/Repr.v
theories/PropsNear.v
theories/PropsTurn.v
theories/PropsSlice.v
theories/PropsTrig.v
theories/PropsFactor.v
theories/PropsBishop.v
theories/PropsCross.v
theories/PropsEnds.v
theories/PropsStart.v
theories/PropsRise.v
theories/PropsEntry.v
theories/PropsRepr.v
theories/Tests.v
