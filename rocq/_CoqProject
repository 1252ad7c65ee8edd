-Q theories Verif
theories/FramesModel.v
theories/FramesSpec.v
theories/FramesProofs.v
theories/RotationProofs.v
theories/RotationProofs2.v
theories/RotationProofs3.v
theories/FrameOpsProofs.v
theories/RotationBands.v
theories/FramesWitness.v
theories/FramesProps.v
theories/Outcome.v
theories/DualModel.v
theories/InertiaModel.v
theories/KinModel.v
theories/KinSpec.v
theories/LoopProofs.v
theories/DerivProofs.v
theories/KinProofs.v
theories/JacProofs.v
theories/JacDotProofs.v
theories/KinProtocol.v
theories/KinWitness.v
theories/KinProps.v
theories/DualSpec.v
theories/DualProofs.v
theories/DualGeoProofs.v
theories/DualWitness.v
theories/DualProps.v
theories/InertiaSpec.v
theories/InertiaProofs.v
theories/InertiaProps.v
theories/TreeModel.v
theories/TreeSpec.v
theories/TreeProofs.v
theories/TreeCopyProofs.v
theories/TreeNumProofs.v
theories/TreeChainProofs.v
theories/TreeSolverProofs.v
theories/TreeWitness.v
theories/TreeFinal.v
theories/TreeProps.v
theories/LinModel.v
theories/LinSpec.v
theories/SumProofs.v
theories/LdlProofs.v
theories/LinProps.v
theories/DynModel.v
theories/DynSpec.v
theories/SpatialProofs.v
theories/RneProofs.v
theories/MassProofs.v
theories/DynProofs.v
theories/FdProofs.v
theories/EnergyProofs.v
theories/DynWitness.v
theories/DynProps.v
theories/ProfModel.v
theories/ProfSpec.v
theories/ProfProofs.v
theories/ProfProofs2.v
theories/ProfProofs3.v
theories/ProfProofs4.v
theories/ProfWitness.v
theories/ProfProps.v
theories/PathModel.v
theories/PathSpec.v
theories/PathProofs.v
theories/PathProofs2.v
theories/PathProofs3.v
theories/PathProofs4.v
theories/PathProofs5.v
theories/PathProofs6.v
theories/PathProofs7.v
theories/TrajSpec.v
theories/TrajProofs.v
theories/TrajProofs2.v
theories/TrajProofs3.v
theories/PathWitness.v
theories/PathProps.v
theories/TrajProps.v
theories/JntModel.v
theories/JntSpec.v
theories/JntProofs.v
theories/JntProofs2.v
theories/JntProps.v
theories/IkModel.v
theories/IkSpec.v
theories/IkGeoProofs.v
theories/IkProofs.v
theories/IkProofs2.v
theories/IkWitness.v
theories/IkTreeProofs.v
theories/IkTreeProofs2.v
theories/IkTreeWitness.v
theories/IkProps.v
theories/LmaModel.v
theories/LmaSpec.v
theories/LmaProofs.v
theories/LmaProofs2.v
theories/LmaWitness.v
theories/LmaProps.v
theories/VelIkModel.v
theories/VelIkSpec.v
theories/VelIkLin.v
theories/VelIkProofs.v
theories/VelIkProofs2.v
theories/VelIkProofs3.v
theories/VelIkProofs4.v
theories/VelIkWitness.v
theories/VelIkProps.v
theories/ConfigProofs.v
theories/ConfigProps.v
theories/TreeDynModel.v
theories/TreeDynSpec.v
theories/TreeDynProofs.v
theories/TreeDynChain.v
theories/TreeDynFinal.v
theories/TreeDynWitness.v
theories/TreeDynProps.v
theories/SvdModel.v
theories/SvdSpec.v
theories/SvdHouse.v
theories/SvdBidiag.v
theories/SvdAccum.v
theories/SvdNorm.v
theories/SvdQr.v
theories/SvdDiag.v
theories/SvdFinal.v
theories/SvdEps.v
theories/SvdLast.v
theories/SvdRound.v
theories/SvdWitness.v
theories/SvdProps.v
theories/IoModel.v
theories/IoSpec.v
theories/IoNum.v
theories/IoEat.v
theories/IoObjects.v
theories/IoComplete.v
theories/IoRound.v
theories/IoTotal.v
theories/IoFinal.v
theories/IoDescrSpec.v
theories/IoDescr.v
theories/IoFailSpec.v
theories/IoFail.v
theories/IoProps.v
theories/EdgeSpec.v
theories/EdgeProofs.v
theories/EdgeProps.v
theories/HdModel.v
theories/HdAbs.v
theories/HdLoops.v
theories/HdBridge.v
theories/HdSpec.v
theories/HdProofs.v
theories/HdMotion.v
theories/HdThms.v
theories/HdThms2.v
theories/HdThms3.v
theories/HdThms4.v
theories/HdHist.v
theories/HdWitness.v
theories/HdProps.v
theories/EwModel.v
theories/EwSpec.v
theories/EwProofs.v
theories/EwConv.v
theories/EwHist.v
theories/EwThms.v
theories/EwThms2.v
theories/EwProps.v
theories/GivensModel.v
theories/GivensSpec.v
theories/GivensLin.v
theories/GivensLoop.v
theories/GivensFactor.v
theories/GivensThms.v
theories/GivensThms2.v
theories/GivensWitness.v
theories/GivensProps.v
theories/MioModel.v
theories/MioSpec.v
theories/MioComplete.v
theories/MioSound.v
theories/MioEnds.v
theories/MioWritten.v
theories/MioFinal.v
theories/MioWitness.v
theories/MioProps.v
theories/NearSvd.v
theories/PinvModel.v
theories/PinvSpec.v
theories/PinvProofs.v
theories/SkewRun.v
theories/PinvWitness.v
theories/PinvProps.v
theories/RotNear.v
theories/LipProofs.v
theories/TaylorProofs.v
theories/NewtonSpec.v
theories/NewtonProofs.v
theories/NewtonLoop.v
theories/NewtonPinv.v
theories/NewtonThms.v
theories/NewtonWitness.v
theories/NewtonProps.v
theories/FlModel.v
theories/FlSpec.v
theories/FlProofs.v
theories/FlJoint.v
theories/FlChain.v
theories/FlWitness.v
theories/FlProps.v
theories/MiscModel.v
theories/MiscSpec.v
theories/MiscProofs.v
theories/MiscProps.v
theories/KioModel.v
theories/KioSpec.v
theories/KioTree.v
theories/KioText.v
theories/KioWitness.v
theories/KioProps.v
theories/EqModel.v
theories/EqSpec.v
theories/EqProofs.v
theories/EqProofs2.v
theories/EqProps.v
theories/PyModel.v
theories/PySpec.v
theories/PyProofs.v
theories/PyProofs2.v
theories/PyProps.v
theories/OwnModel.v
theories/OwnSpec.v
theories/OwnProofs.v
theories/OwnProofs2.v
theories/OwnProofs3.v
theories/OwnProofs4.v
theories/OwnBorrow.v
theories/OwnProps.v
theories/FlJacModel.v
theories/FlJacSpec.v
theories/FlJacProofs.v
theories/FlJacCols.v
theories/FlJacRun.v
theories/FlJacProps.v
theories/PosDefSpec.v
theories/PosDefProofs.v
theories/RobotModel.v
theories/RobotSpec.v
theories/RobotProofs.v
theories/RobotJac.v
theories/RobotSing.v
theories/RobotDyn.v
theories/RobotIk.v
theories/RobotProps.v
theories/RobotKuka.v
theories/LifeModel.v
theories/LifeSpec.v
theories/LifeProofs.v
theories/LifeProofs2.v
theories/LifeProps.v
theories/DioModel.v
theories/DioSpec.v
theories/DioProofs.v
theories/DioProps.v
theories/TreePyModel.v
theories/TreeSegs.v
theories/TreeSegProps.v
theories/LmaConv1.v
theories/LmaConv2.v
theories/LmaConv3.v
theories/LmaConv4.v
theories/LmaConvWitness.v
theories/LmaConvProps.v
theories/NewtonWdls.v
theories/NewtonWdlsWitness.v
theories/NewtonWdlsProps.v
theories/FlVelModel.v
theories/FlVelSpec.v
theories/FlVelSeg.v
theories/FlVelProofs.v
theories/FlVelRun.v
theories/FlVelProps.v
theories/IkOwnSpec.v
theories/IkOwn.v
theories/IkOwnSame.v
theories/IkOwnTree.v
theories/IkOwnWitness.v
theories/IkOwnStacks.v
theories/IkOwnProps.v
theories/FlTreeModel.v
theories/FlTreeSpec.v
theories/FlTreeProofs.v
theories/FlTreeSame.v
theories/FlTreeProps.v
theories/FlRotModel.v
theories/FlRotSpec.v
theories/FlRotProofs.v
theories/FlFrameProofs.v
theories/FlRotFinal.v
theories/FlRotProps.v
theories/FlQuatModel.v
theories/FlQuatSpec.v
theories/FlQuatProofs.v
theories/FlQuatMain.v
theories/FlQuatFinal.v
theories/FlQuatJump.v
theories/FlQuatProps.v
theories/FlNormModel.v
theories/FlNormSpec.v
theories/FlNormProofs.v
theories/FlNormFinal.v
theories/FlNormProps.v
theories/FlDynModel.v
theories/FlDynSpec.v
theories/FlDynProofs.v
theories/FlDynMain.v
theories/FlDynFinal.v
theories/FlDynProps.v
theories/FlMassModel.v
theories/FlMassSpec.v
theories/FlMassProofs.v
theories/FlFdProofs.v
theories/FlMassFinal.v
theories/FlTripProofs.v
theories/FlMassProps.v
theories/FlSimModel.v
theories/FlSimSpec.v
theories/FlSimProofs.v
theories/FlSimFinal.v
theories/FlSimProps.v
