-Q theories Verif
theories/Py.v
theories/Grid.v
theories/Grid_Lemmas.v
theories/Flood_Model.v
theories/Flood_Spec.v
theories/Flood_Proofs.v
theories/Flood_Props.v
theories/FloodDic_Proofs.v
theories/FloodDic_Props.v
theories/DicGrains_Model.v
theories/DicGrains_Spec.v
theories/DicGrains_Proofs.v
theories/DicGrains_Props.v
theories/Quat_Model.v
theories/Quat_Spec.v
theories/Quat_Proofs.v
theories/QuatEuler_Proofs.v
theories/QuatSym_Proofs.v
theories/QuatMany_Proofs.v
theories/Quat_Props.v
theories/Boundary_Model.v
theories/Boundary_Spec.v
theories/Boundary_Proofs.v
theories/BoundaryOri_Proofs.v
theories/Boundary_Props.v
theories/Datastore_Model.v
theories/Datastore_Spec.v
theories/Datastore_Proofs.v
theories/DatastoreRoot_Proofs.v
theories/DatastoreOps_Proofs.v
theories/DatastoreUpdate_Model.v
theories/Datastore_Props.v
theories/Crystal_Model.v
theories/Crystal_Spec.v
theories/Crystal_Proofs.v
theories/CrystalMat_Proofs.v
theories/SlipSys_Proofs.v
theories/CrystalData_Proofs.v
theories/CrystalFamily_Proofs.v
theories/Crystal_Props.v
theories/Base_Model.v
theories/Base_Spec.v
theories/Base_Proofs.v
theories/Base_Props.v
theories/Dic_Model.v
theories/Dic_Spec.v
theories/Dic_Proofs.v
theories/Dic_Props.v
theories/Ebsd_Model.v
theories/Ebsd_Spec.v
theories/EbsdKam_Proofs.v
theories/Ebsd_Proofs.v
theories/Ebsd_Props.v
theories/EbsdGrain_Props.v
theories/Text_Model.v
theories/Text_Proofs.v
theories/Ctf_Model.v
theories/Ctf_Spec.v
theories/Ctf_Proofs.v
theories/CtfRot_Proofs.v
theories/Ctf_Props.v
theories/Io_Model.v
theories/Io_Spec.v
theories/IoText_Proofs.v
theories/IoBin_Proofs.v
theories/IoDic_Proofs.v
theories/IoGrid_Proofs.v
theories/Io_Props.v
theories/IoDic_Props.v
theories/Insp_Model.v
theories/Insp_Spec.v
theories/Insp_Proofs.v
theories/InspHist_Proofs.v
theories/InspDraw_Proofs.v
theories/InspRdr_Proofs.v
theories/Insp_Props.v
theories/InspFile_Model.v
theories/InspFile_Spec.v
theories/InspFile_Proofs.v
theories/InspFile_Props.v
theories/Progress_Model.v
theories/Progress_Spec.v
theories/Progress_Proofs.v
theories/Progress_Props.v
theories/Pole_Model.v
theories/Pole_Spec.v
theories/Pole_Proofs.v
theories/Pole_Props.v
theories/MapPlot_Model.v
theories/MapPlot_Spec.v
theories/MapPlot_Proofs.v
theories/MapPlot_Props.v
theories/Ipf_Model.v
theories/Ipf_Spec.v
theories/Ipf_Proofs.v
theories/IpfHex_Proofs.v
theories/IpfColour_Proofs.v
theories/Ipf_Props.v
theories/QuatEq_Model.v
theories/QuatEq_Spec.v
theories/QuatEq_Props.v
theories/Hist_Model.v
theories/Hist_Spec.v
theories/Hist_Proofs.v
theories/Hist_Props.v
theories/Ang_Model.v
theories/Ang_Spec.v
theories/Ang_Proofs.v
theories/Ang_Props.v
theories/Homog_Model.v
theories/Homog_Spec.v
theories/Homog_Proofs.v
theories/Homog_Props.v
theories/Eqv_Model.v
theories/Eqv_Spec.v
theories/Eqv_Proofs.v
theories/Eqv_Props.v
theories/GrainState_Model.v
theories/GrainState_Spec.v
theories/GrainState_Proofs.v
theories/GrainState_Props.v
theories/MapView_Model.v
theories/MapView_Spec.v
theories/MapView_Proofs.v
theories/MapView_Props.v
theories/CompView_Model.v
theories/CompView_Spec.v
theories/CompView_Proofs.v
theories/CompView_Props.v
theories/DicState_Model.v
theories/DicState_Spec.v
theories/DicState_Props.v
theories/Profile_Model.v
theories/Profile_Spec.v
theories/Profile_Props.v
theories/Stats_Model.v
theories/Stats_Spec.v
theories/Stats_Props.v
theories/EbsdState_Model.v
theories/EbsdState_Spec.v
theories/EbsdState_Props.v
theories/DicNet_Model.v
theories/DicNet_Spec.v
theories/DicNet_Props.v
theories/PlotBuild_Model.v
theories/PlotBuild_Spec.v
theories/PlotBuild_Props.v
theories/InspView_Model.v
theories/InspView_Spec.v
theories/InspView_Props.v
theories/UnitCell_Model.v
theories/UnitCell_Spec.v
theories/UnitCell_Proofs.v
theories/UnitCell_Props.v
theories/IpfPlot_Model.v
theories/IpfPlot_Spec.v
theories/IpfPlot_Proofs.v
theories/IpfPlot_Props.v
theories/RdrPlot_Model.v
theories/RdrPlot_Spec.v
theories/RdrPlot_Props.v
theories/SlipBand_Model.v
theories/SlipBand_Spec.v
theories/SlipBand_Props.v
theories/SchmidMap_Model.v
theories/SchmidMap_Spec.v
theories/SchmidMap_Props.v
theories/PhaseMap_Model.v
theories/PhaseMap_Spec.v
theories/PhaseMap_Props.v
theories/GrainIds_Spec.v
theories/GrainIds_Props.v
theories/DicLoad_Model.v
theories/DicLoad_Spec.v
theories/DicLoad_Props.v
theories/Session_Model.v
theories/Session_Spec.v
theories/Session_Props.v
theories/EbsdLoad_Model.v
theories/EbsdLoad_Spec.v
theories/FloodExt_Proofs.v
theories/EbsdLoad_Proofs.v
theories/EbsdLoad_Props.v
theories/EbsdLoadEx_Props.v
theories/DicLink_Model.v
theories/DicLink_Spec.v
theories/DicLink_Props.v
theories/EbsdTurn_Spec.v
theories/EbsdTurn_Proofs.v
theories/EbsdTurn_Props.v
theories/QuatObj_Model.v
theories/QuatObj_Spec.v
theories/QuatObj_Props.v
theories/DicCrystal_Model.v
theories/DicCrystal_Spec.v
theories/DicCrystal_Proofs.v
theories/DicCrystal_Props.v
theories/DicFlood_Model.v
theories/DicFlood_Spec.v
theories/DicFlood_Props.v
theories/Double_Model.v
theories/Double_Spec.v
theories/Double_Proofs.v
theories/Double_Angle.v
theories/Double_Props.v
theories/Single_Model.v
theories/Single_Spec.v
theories/Single_Proofs.v
theories/Single_Angle.v
theories/Single_Props.v
theories/Cpr_Model.v
theories/Cpr_Spec.v
theories/Cpr_Proofs.v
theories/Cpr_Props.v
theories/Strain64_Model.v
theories/Strain64_Spec.v
theories/Strain64_Proofs.v
theories/Strain64_Props.v
theories/Kam64_Model.v
theories/Kam64_Spec.v
theories/Kam64_Proofs.v
theories/Grod64_Proofs.v
theories/Kam64_Props.v
theories/Average64_Model.v
theories/Average64_Spec.v
theories/Average64_Proofs.v
theories/Average64_Props.v
theories/Schmid64_Model.v
theories/Schmid64_Spec.v
theories/Schmid64_Proofs.v
theories/Schmid64_Props.v
theories/Trace64_Model.v
theories/Trace64_Spec.v
theories/Trace64_Proofs.v
theories/Trace64_Props.v
theories/Ratio64_Model.v
theories/Ratio64_Props.v
theories/RotMat64_Model.v
theories/RotMat64_Spec.v
theories/RotMat64_Props.v
theories/Nye64_Model.v
theories/Nye64_Props.v
