-Q theories Verif
theories/Base.v
theories/TokModel.v
theories/ParModel.v
theories/LexSpec.v
theories/TokProofs.v
theories/NumProofs.v
theories/LexProofs.v
theories/SceneSpec.v
theories/SynErrSpec.v
theories/ParProofs.v
theories/DirProofs.v
theories/LexThms.v
theories/SimProofs.v
theories/SceneObs.v
theories/TextThms.v
theories/PropsLexLemmas.v
theories/PropsLex.v
theories/SceneThms.v
theories/KindProofs.v
theories/SceneProps.v
theories/PropsSceneLemmas.v
theories/PropsScene.v
theories/PrintSpec.v
theories/PrintProofs.v
theories/DepthModel.v
theories/DepthProofs.v
theories/PropsRoundLemmas.v
theories/PropsRound.v
theories/Elem.v
theories/FloatInst.v
theories/ExactInst.v
theories/GeoModel.v
theories/MatModel.v
theories/GeoSpec.v
theories/MatSpec.v
theories/ArithSpec.v
theories/IterSpec.v
theories/OrderProofs.v
theories/BoxThms.v
theories/PropsBoxLemmas.v
theories/PropsBox.v
theories/ExactThms.v
theories/IntThms.v
theories/IterThms.v
theories/MatThms.v
theories/InvThms.v
theories/TransThms.v
theories/FloatCore.v
theories/FloatThms.v
theories/PropsMatLemmas.v
theories/PropsMat.v
theories/PropsGeo.v
theories/OpsSpec.v
theories/OpsThms.v
theories/TransVec.v
theories/PropsOps.v
theories/LexErrSpec.v
theories/LexErrProofs.v
theories/SynErrProofs.v
theories/ErrSpec.v
theories/ErrThms.v
theories/PropsErr.v
theories/StableSpec.v
theories/StableThms.v
theories/PropsStable.v
theories/RenderModel.v
theories/RenderSpec.v
theories/RenderProofs.v
theories/PropsRender.v
theories/FloatErrSpec.v
theories/FloatErr.v
theories/FloatErrThms.v
theories/FloatSphere.v
theories/FloatFrame.v
theories/FloatErrEx.v
theories/PropsFloatErr.v
theories/FloatInv.v
theories/FloatScale.v
theories/FloatCompose.v
theories/InvFloatEx.v
theories/FloatLit.v
theories/ModelTests.v
theories/DecSpec.v
theories/DecThms.v
theories/DecText.v
theories/DecConv.v
theories/DecExp.v
theories/DecProps.v
theories/PropsDec.v
theories/TraceModel.v
theories/TraceCore.v
theories/LooksSpec.v
theories/LooksPar.v
theories/LooksTok.v
theories/LooksThms.v
theories/PropsLooks.v
theories/ValueSpec.v
theories/ValueProofs.v
theories/PropsValue.v
theories/BuildSpec.v
theories/BuildProofs.v
theories/PropsBuild.v
theories/StackSpec.v
theories/StackProofs.v
theories/PropsStack.v
theories/MoveSpec.v
theories/MoveProofs.v
theories/ConcatProofs.v
theories/PropsMove.v
theories/ViableSpec.v
theories/SizeSpec.v
theories/ViableProofs.v
theories/ViableText.v
theories/SizeProofs.v
theories/PropsViable.v
theories/RaySpec.v
theories/FloatNan.v
theories/FloatLerp.v
theories/FloatRay.v
theories/PropsLerp.v
theories/ManySpec.v
theories/BoxNan.v
theories/PropsMany.v
theories/GaussReal.v
theories/FloatGauss.v
theories/GaussEx.v
theories/PropsGauss.v
theories/LikeSpec.v
theories/LikeProofs.v
theories/LikeThms.v
theories/PropsLike.v
theories/FloatBack.v
theories/PropsBack.v
theories/SignSpec.v
theories/FloatSign.v
theories/SignEx.v
theories/PropsSign.v
theories/FloatMono.v
theories/PropsMono.v
theories/MirSpec.v
theories/FloatMirror.v
theories/PropsMirror.v
theories/FloatBlocks.v
theories/PropsBlocks.v
theories/UnitSpec.v
theories/FloatUnit.v
theories/PropsUnit.v
theories/RangeSpec.v
theories/FloatRange.v
theories/PropsRange.v
theories/NanSpec.v
theories/FloatNanOps.v
theories/FloatThird.v
theories/FloatScaleNan.v
theories/PropsInvFloat.v
theories/PropsNan.v
theories/ReorderSpec.v
theories/ReorderProofs.v
theories/PropsReorder.v
theories/AxesSpec.v
theories/FloatAxes.v
theories/PropsAxes.v
theories/CutSpec.v
theories/CutProofs.v
theories/PropsCut.v
theories/RememberSpec.v
theories/RememberProofs.v
theories/PropsRemember.v
theories/ChkSpec.v
theories/ChkProofs.v
theories/PropsChk.v
theories/LawSpec.v
theories/FloatLaws.v
theories/PropsLaws.v
theories/EqModel.v
theories/EqSpec.v
theories/EqProofs.v
theories/EqThms.v
theories/PropsEq.v
theories/ZeroSpec.v
theories/WholeSpec.v
theories/FloatZero.v
theories/FloatWhole.v
theories/FloatIter.v
theories/PropsZero.v
theories/PropsWhole.v
theories/LenSpec.v
theories/FloatLen.v
theories/PropsLen.v
theories/SeenSpec.v
theories/Seen.v
theories/SeenThms.v
theories/PropsSeen.v
theories/MsgProofs.v
theories/PropsMsg.v
theories/NearSpec.v
theories/FloatNear.v
theories/PropsNear.v
theories/EuclidSpec.v
theories/FloatEuclid.v
theories/PropsEuclid.v
theories/MainModel.v
theories/MainSpec.v
theories/MainProofs.v
theories/PropsMain.v
theories/FloatResid.v
theories/PropsResid.v
theories/IntLen.v
theories/PropsIntLen.v
theories/FloatHalf.v
theories/PropsHalf.v
theories/MeetSpec.v
theories/BoxMeet.v
theories/PropsMeet.v
theories/BoxShrink.v
theories/PropsShrink.v
theories/RingSpec.v
theories/IntRing.v
theories/PropsRing.v
theories/ShiftSpec.v
theories/IntShift.v
theories/PropsShift.v
theories/GrowSpec.v
theories/IntGrow.v
theories/PropsGrow.v
theories/FlipSpec.v
theories/IntFlip.v
theories/PropsFlip.v
