-Q theories Verif
theories/Base.v
theories/Calc.v
theories/ListLib.v
theories/ReduceModel.v
theories/ReduceSpec.v
theories/ReduceProofs.v
theories/ReduceProofs2.v
theories/ReduceProps.v
theories/PreprocessModel.v
theories/PreprocessSpec.v
theories/PreprocessProofs.v
theories/PreprocessProofs2.v
theories/PreprocessProofs3.v
theories/PreprocessProps.v
theories/AttGtModel.v
theories/AttGtSpec.v
theories/AttGtProofs.v
theories/AttGtProofs2.v
theories/AttGtProofs3.v
theories/AttGtProofs4.v
theories/AttGtProofs5.v
theories/AttGtProps.v
theories/Witness.v
theories/AggteModel.v
theories/AggteSpec.v
theories/AggteProofs.v
theories/AggteProofs2.v
theories/AggteProofs3.v
theories/AggteProofs4.v
theories/AggteProofs5.v
theories/AggteProps.v
theories/SeModel.v
theories/SeProofs.v
theories/SeProps.v
theories/DrdidModel.v
theories/DrdidSpec.v
theories/DrdidProofs.v
theories/DrdidProofs2.v
theories/DrdidProofs3.v
theories/DrdidProofs4.v
theories/DrdidProofs5.v
theories/DrdidWitness.v
theories/DrdidProps.v
theories/DistDidModel.v
theories/DistDidSpec.v
theories/DrdidProofs6.v
theories/DrdidProofs7.v
theories/DrdidProofs8.v
theories/DrdidProofs9.v
theories/DrdidProofs10.v
theories/DrdidWitness2.v
theories/DrdidDerivProps.v
theories/RcModel.v
theories/RcSpec.v
theories/RcCalc.v
theories/RcProofs.v
theories/RcProofs2.v
theories/RcProofs3.v
theories/RcProofs4.v
theories/RcProofs5.v
theories/RcProofs6.v
theories/RcProofs7.v
theories/RcProofs8.v
theories/RcProofs9.v
theories/RcWitness.v
theories/RcWitness2.v
theories/RcProps.v
theories/DistDidProofs.v
theories/DistDidProofs2.v
theories/DistDidProofs3.v
theories/DistDidProps.v
theories/DistDrvModel.v
theories/DistDrvSpec.v
theories/DistDrvProofs.v
theories/DistDrvProofs2.v
theories/DistDrvProps.v
theories/DistSampleModel.v
theories/DistSampleSpec.v
theories/DistSampleProofs.v
theories/DistSampleProps.v
theories/MbootModel.v
theories/MbootSpec.v
theories/MbootProofs.v
theories/MbootProofs2.v
theories/MbootProofs3.v
theories/MbootProps.v
theories/PanelModel.v
theories/PanelSpec.v
theories/PanelProofs.v
theories/PanelProofs2.v
theories/PanelProofs3.v
theories/PanelProps.v
theories/HonestModel.v
theories/HonestSpec.v
theories/HonestProofs.v
theories/HonestProofs2.v
theories/HonestProofs3.v
theories/HonestProofs4.v
theories/HonestProps.v
theories/DddModel.v
theories/DddSpec.v
theories/DddProofs.v
theories/DddProofs2.v
theories/DddProofs3.v
theories/DddProofs4.v
theories/DddProofs5.v
theories/DddWitness.v
theories/DddProps.v
theories/DddMpModel.v
theories/DddMpSpec.v
theories/DddMpGmm.v
theories/DddMpProofs1.v
theories/DddMpProofs2.v
theories/DddMpProofs3.v
theories/DddMpProofs4.v
theories/DddMpProofs5.v
theories/DddMpProofs6.v
theories/DddMpWitness.v
theories/DddMpProps.v
theories/AggDddModel.v
theories/AggDddSpec.v
theories/AggDddProofs.v
theories/AggDddProofs2.v
theories/AggDddProofs3.v
theories/AggDddProofs4.v
theories/AggDddProofs5.v
theories/AggDddProofs6.v
theories/AggDddProofs7.v
theories/AggDddProofs8.v
theories/AggDddProofs9.v
theories/AggDddProps.v
theories/InterModel.v
theories/InterSpec.v
theories/InterProofs1.v
theories/InterProofs2.v
theories/InterProofs3.v
theories/InterProofs4.v
theories/InterProofs5.v
theories/InterProofs6.v
theories/InterProofs7.v
theories/InterProofs8.v
theories/InterProofs9.v
theories/InterProofs10.v
theories/InterProofs11.v
theories/InterProofs12.v
theories/InterWitness.v
theories/InterProofs13.v
theories/InterWitness2.v
theories/InterProps.v
theories/InterProps2.v
theories/SplineModel.v
theories/SplineSpec.v
theories/SplineProofs.v
theories/SplineProofs2.v
theories/SplineProofs3.v
theories/SplineProofs4.v
theories/SplineProps.v
theories/ContModel.v
theories/ContSpec.v
theories/ContProofs.v
theories/ContProofs2.v
theories/ContProofs3.v
theories/ContProofs4.v
theories/ContProofs5.v
theories/ContProofs6.v
theories/ContWitness.v
theories/ContProps.v
theories/ContSpec2.v
theories/ContProofs7.v
theories/ContProofs8.v
theories/ContProofs9.v
theories/ContProofs10.v
theories/ContProofs11.v
theories/ContProofs12.v
theories/ContProps2.v
theories/ContProofs13.v
theories/ContProps3.v
theories/ContEsModel.v
theories/ContEsSpec.v
theories/ContEsProofs.v
theories/ContEsProofs2.v
theories/ContEsProofs3.v
theories/ContEsProofs4.v
theories/ContEsProps.v
theories/DddRcModel.v
theories/DddRcSpec.v
theories/DddRcProofs.v
theories/DddRcProofs2.v
theories/DddRcProofs3.v
theories/DddRcProofs4.v
theories/DddRcProofs5.v
theories/DddRcWitness.v
theories/DddRcWitness2.v
theories/DddRcWitness3.v
theories/DddRcProps.v
theories/DistDddModel.v
theories/DistDddSpec.v
theories/DistDddProofs.v
theories/DistDddProofs2.v
theories/DistDddProofs3.v
theories/DistDddSpec2.v
theories/DistDddProofs4.v
theories/DistDddProps.v
theories/DistDddMpModel.v
theories/DistDddMpSpec.v
theories/DistDddMpProofs.v
theories/DistDddMpProofs2.v
theories/DistDddMpProps.v
theories/ImpModel.v
theories/ImpSpec.v
theories/ImpProofs.v
theories/ImpProofs2.v
theories/ImpProofs3.v
theories/ImpProofs4.v
theories/IptProofs.v
theories/ImpWitness.v
theories/ImpProps.v
theories/TwfeModel.v
theories/TwfeSpec.v
theories/TwfeProofs.v
theories/TwfeProofs2.v
theories/TwfeProofs3.v
theories/TwfeWitness.v
theories/TwfeProps.v
theories/ImpRcModel.v
theories/ImpRcSpec.v
theories/ImpRcProofs.v
theories/ImpRcProofs2.v
theories/ImpRcProofs3.v
theories/ImpRcProofs4.v
theories/ImpRcWitness.v
theories/ImpRcProps.v
theories/TwoModel.v
theories/TwoSpec.v
theories/TwoProofs.v
theories/TwoProofs2.v
theories/TwoProofs3.v
theories/TwoProofs4.v
theories/TwoProofs5.v
theories/TwoProps.v
theories/WaldModel.v
theories/WaldSpec.v
theories/WaldProofs.v
theories/WaldProps.v
