-Q theories Verif
theories/RegionModel.v
theories/RegionSpec.v
theories/RegionProofs.v
theories/Properties_Region.v
theories/PoolModel.v
theories/PoolSpec.v
theories/PoolProofs.v
theories/Properties_Pool.v
theories/BitsModel.v
theories/BitsProofs.v
theories/Properties_Bits.v
theories/TimeModel.v
theories/TimeProofs.v
theories/Properties_Time.v
theories/TimeSpec.v
theories/HeapModel.v
theories/HeapSpec.v
theories/HeapProofs.v
theories/Properties_Heap.v
theories/RefModel.v
theories/RefSpec.v
theories/RefProofs.v
theories/Properties_Ref.v
theories/TfModel.v
theories/TfSpec.v
theories/TfProofs.v
theories/TfRotmatProofs.v
theories/TfRepProofs.v
theories/TfCalcProofs.v
theories/TfFrameProofs.v
theories/Properties_Tf.v
theories/AtanModel.v
theories/AtanProofs.v
theories/PlanarModel.v
theories/PlanarSpec.v
theories/PlanarProofs.v
theories/Properties_Planar.v
theories/VecModel.v
theories/VecProofs.v
theories/Properties_Vec.v
theories/TfExpModel.v
theories/TfExpSpec.v
theories/SeriesProofs.v
theories/TfExpProofs.v
theories/TfLogProofs.v
theories/TfScrewProofs.v
theories/TfLnProofs.v
theories/TfSmallProofs.v
theories/TfInterpProofs.v
theories/TfConvProofs.v
theories/TfLnNear.v
theories/Properties_TfExp.v
theories/SgModel.v
theories/SgSpec.v
theories/SgKinSpec.v
theories/SgMapProofs.v
theories/SgIndexProofs.v
theories/SgNumberProofs.v
theories/SgInvProofs.v
theories/SgQueryProofs.v
theories/SgClaims1.v
theories/SgFkProofs.v
theories/SgFkProofs2.v
theories/SgClaims2.v
theories/SgChainProofs.v
theories/SgClaims3.v
theories/SgJacProofs.v
theories/ClModel.v
theories/ClSpec.v
theories/ClProofs.v
theories/ClAllowProofs.v
theories/SgCopyProofs.v
theories/SgExamples.v
theories/Properties_Sg.v
theories/TrModel.v
theories/TrSpec.v
theories/TrEvalProofs.v
theories/TrLinProofs.v
theories/TrPbProofs.v
theories/TrPbMotionProofs.v
theories/TrCheckProofs.v
theories/TrTrapProofs.v
theories/TrCartModel.v
theories/TrCartProofs.v
theories/TrClaims.v
theories/Properties_Tr.v
theories/MatModel.v
theories/MatSpec.v
theories/MatProofs.v
theories/Properties_Mat.v
theories/LaModel.v
theories/LaSpec.v
theories/LaAlg.v
theories/LaProofs.v
theories/La2Proofs.v
theories/La3Proofs.v
theories/La4Proofs.v
theories/Properties_La.v
theories/HgModel.v
theories/HgSpec.v
theories/HgBase.v
theories/HgProofs.v
theories/HgRect.v
theories/Properties_Hg.v
theories/RkModel.v
theories/RkSpec.v
theories/RkProofs.v
theories/RkOrder.v
theories/RkTree.v
theories/RkSol.v
theories/RkFinal.v
theories/Properties_Rk.v
theories/PdeModel.v
theories/PdeProofs.v
theories/Pde2Proofs.v
theories/Properties_Pde.v
theories/IkModel.v
theories/IkSpec.v
theories/IkProofs.v
theories/IkPose.v
theories/IkObj.v
theories/Properties_Ik.v
theories/WkModel.v
theories/WkSpec.v
theories/WkServo.v
theories/WkLoop.v
theories/Properties_Wk.v
theories/WkRateModel.v
theories/WkRateSpec.v
theories/WkRate.v
theories/WkRate2.v
theories/WkRate3.v
theories/WkRate4.v
theories/Properties_WkRate.v
theories/IkSolveModel.v
theories/IkSolveSpec.v
theories/IkSolve.v
theories/IkSolve2.v
theories/IkSolve3.v
theories/IkSolve4.v
theories/Properties_IkSolve.v
theories/LcModel.v
theories/LcSpec.v
theories/LcProofs.v
theories/LcProofs2.v
theories/LcExamples.v
theories/Properties_Lc.v
theories/TjxModel.v
theories/TjxSpec.v
theories/TjxProofs.v
theories/TjxPath.v
theories/TjxMore.v
theories/TjxExamples.v
theories/Properties_Tjx.v
theories/StModel.v
theories/StSpec.v
theories/StProofs.v
theories/StList.v
theories/StExamples.v
theories/Properties_St.v
theories/WfModel.v
theories/WfSpec.v
theories/WfProofs.v
theories/WfNum.v
theories/WfObj.v
theories/WfObj2.v
theories/WfObj3.v
theories/WfObj4.v
theories/WfMtl.v
theories/WfMtl2.v
theories/WfAny.v
theories/WfClaims.v
theories/WfExamples.v
theories/Properties_Wf.v
theories/IoModel.v
theories/IoSpec.v
theories/IoProofs.v
theories/IoNum.v
theories/IoLines.v
theories/IoParse.v
theories/IoVec.v
theories/IoMat.v
theories/IoHeap.v
theories/IoPrint.v
theories/IoExamples.v
theories/Properties_Io.v
theories/OptModel.v
theories/OptSpec.v
theories/OptProofs.v
theories/OptGlpk.v
theories/OptClp.v
theories/OptLps.v
theories/OptLps2.v
theories/OptSolve.v
theories/OptClaims.v
theories/OptExamples.v
theories/Properties_Opt.v
theories/FcModel.v
theories/FcSpec.v
theories/FcGeom.v
theories/FcCheck.v
theories/FcAllow.v
theories/FcDist.v
theories/FcExamples.v
theories/Properties_Fc.v
theories/MpModel.v
theories/MpSpec.v
theories/MpProofs.v
theories/MpClaims.v
theories/MpExamples.v
theories/MpThrModel.v
theories/MpThrSpec.v
theories/MpThrProofs.v
theories/Properties_Mp.v
theories/SpModel.v
theories/SpSpec.v
theories/SpProofs.v
theories/Properties_Sp.v
theories/GlModel.v
theories/GlSpec.v
theories/GlProofs.v
theories/GlGrid.v
theories/GlCone.v
theories/GlCone2.v
theories/GlSphere.v
theories/GlTorus.v
theories/Properties_Gl.v
theories/WinThrModel.v
theories/WinThrSpec.v
theories/WinThrProofs.v
theories/WinThrOne.v
theories/WinThrLive.v
theories/WinThrBad.v
theories/Properties_Win.v
theories/GeoModel.v
theories/GeoSpec.v
theories/GeoProofs.v
theories/GeoRun.v
theories/GeoClaims.v
theories/Properties_Geo.v
theories/MeshModel.v
theories/MeshSpec.v
theories/MeshProofs.v
theories/Properties_Mesh.v
theories/ShowModel.v
theories/ShowSpec.v
theories/ShowProofs.v
theories/Properties_Show.v
theories/AngModel.v
theories/AngSpec.v
theories/AngProofs.v
theories/AngStat.v
theories/Properties_Ang.v
theories/PkModel.v
theories/PkProofs.v
theories/Properties_Pk.v
theories/CareModel.v
theories/CareSpec.v
theories/CareProofs.v
theories/Properties_Care.v
theories/CamModel.v
theories/CamSpec.v
theories/CamMask.v
theories/CamProofs.v
theories/CamClaims.v
theories/Properties_Cam.v
theories/UiModel.v
theories/UiSpec.v
theories/UiProofs.v
theories/Properties_Ui.v
theories/DeadModel.v
theories/DeadSpec.v
theories/DeadProofs.v
theories/Properties_Dead.v
theories/AvgModel.v
theories/AvgSpec.v
theories/AvgProofs.v
theories/Properties_Avg.v
theories/NrModel.v
theories/NrSpec.v
theories/NrProofs.v
theories/NrProofs2.v
theories/NrProofs3.v
theories/Properties_Nr.v
theories/LocModel.v
theories/LocSpec.v
theories/LocProofs.v
theories/Properties_Loc.v
theories/JacModel.v
theories/JacSpec.v
theories/JacProofs.v
theories/JacProofs2.v
theories/Properties_Jac.v
theories/OwnModel.v
theories/OwnSpec.v
theories/OwnProofs.v
theories/Properties_Own.v
theories/PlugModel.v
theories/PlugSpec.v
theories/PlugProofs.v
theories/Properties_Plug.v
theories/BoxModel.v
theories/BoxSpec.v
theories/BoxProofs.v
theories/Properties_Box.v
