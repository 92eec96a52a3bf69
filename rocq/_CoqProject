-Q theories Verif
theories/M_Net.v
theories/P_Net.v
theories/M_Time.v
theories/M_Wave.v
theories/M_Cpl.v
theories/S_Prog.v
theories/S_Cpl.v
theories/P_Prog.v
theories/P_Cpl.v
theories/P_CplRun.v
theories/P_CplApi.v
theories/P_CplExec.v
theories/T_Cpl.v
theories/P_Pair.v
theories/P_CplData.v
theories/P_CplStep.v
theories/P_Log.v
theories/S_Net.v
theories/P_NetLift.v
theories/P_CplWin.v
theories/P_NetPar.v
theories/P_NetSer.v
theories/P_NetExec.v
theories/P_NetData.v
theories/T_Net.v
theories/M_WaveCache.v
theories/S_Wave.v
theories/P_Wave.v
theories/P_Spline.v
theories/T_Wave.v
theories/S_Term.v
theories/M_Comm.v
theories/P_Term.v
theories/M_Mesh.v
theories/M_Serial.v
theories/S_Mesh.v
theories/S_Serial.v
theories/P_Serial.v
theories/P_SerMesh.v
theories/P_SerPart.v
theories/T_Serial.v
theories/S_Intra.v
theories/P_Intra.v
theories/M_Ring.v
theories/P_Ring.v
theories/T_Intra.v
theories/M_Prep.v
theories/S_Prep.v
theories/P_Prep.v
theories/S_Filter.v
theories/P_Filter.v
theories/M_Box.v
theories/S_Box.v
theories/P_Box.v
theories/M_Quad.v
theories/S_Quad.v
theories/P_Quad.v
theories/P_Quad2.v
theories/P_Quad3.v
theories/T_Mesh.v
theories/M_Api.v
theories/S_Api.v
theories/P_Api.v
theories/P_ApiEff.v
theories/P_ApiInv.v
theories/P_ApiVal.v
theories/P_ApiThm.v
theories/T_Api.v
theories/S_ApiMesh.v
theories/P_ApiMesh.v
theories/T_ApiMesh.v
theories/M_Swarm.v
theories/S_Swarm.v
theories/P_Swarm.v
theories/T_Swarm.v
theories/M_Map.v
theories/S_Map.v
theories/P_Bary.v
theories/P_Map.v
theories/P_MapFind.v
theories/P_MapTop.v
theories/P_MapGrad.v
theories/P_MapClose.v
theories/T_Map.v
theories/T_MapEx.v
theories/M_MapTime.v
theories/S_MapTime.v
theories/P_MapTime.v
theories/T_MapTime.v
theories/M_Accel.v
theories/S_Accel.v
theories/P_Accel.v
theories/P_Aitken.v
theories/T_Accel.v
theories/M_Bounds.v
theories/S_Bounds.v
theories/P_Bounds.v
theories/T_Bounds.v
theories/M_QN.v
theories/S_QN.v
theories/P_QN.v
theories/P_QNWin.v
theories/P_QNRun.v
theories/T_QN.v
theories/M_M2N.v
theories/S_M2N.v
theories/P_M2N.v
theories/P_P2P.v
theories/P_P2PRun.v
theories/T_M2N.v
theories/M_Socket.v
theories/S_Socket.v
theories/P_Socket.v
theories/P_SocketStep.v
theories/P_SocketEnd.v
theories/T_Socket.v
theories/M_Part.v
theories/S_Part.v
theories/P_Part.v
theories/P_Own.v
theories/P_Recv.v
theories/T_Part.v
theories/P_Mail.v
theories/P_Own2.v
theories/T_Own2.v
theories/M_Comp.v
theories/S_Comp.v
theories/P_Comp.v
theories/P_Comp2.v
theories/T_Comp.v
theories/M_Multi.v
theories/S_Multi.v
theories/P_Trace.v
theories/P_MultiData.v
theories/P_MultiPart.v
theories/P_MultiNet.v
theories/P_MultiRun.v
theories/P_NetExecN.v
theories/T_Multi.v
theories/M_Publish.v
theories/M_Names.v
theories/S_Publish.v
theories/P_Publish.v
theories/P_Names.v
theories/T_Publish.v
theories/M_Rbf.v
theories/S_Rbf.v
theories/P_Rbf.v
theories/P_RbfPar.v
theories/P_RbfLin.v
theories/T_Rbf.v
theories/M_Pum.v
theories/S_Pum.v
theories/P_PumLocal.v
theories/P_Pum.v
theories/P_PumJit.v
theories/P_PumRun.v
theories/T_Pum.v
theories/M_Repart.v
theories/S_Repart.v
theories/P_Repart.v
theories/P_RepartTag.v
theories/T_Repart.v
theories/S_Field.v
theories/M_QR.v
theories/S_QR.v
theories/P_Field.v
theories/P_Dim.v
theories/P_QR.v
theories/P_QRsolve.v
theories/P_QRfilter.v
theories/T_QR.v
theories/M_IQN.v
theories/S_IQN.v
theories/P_IQNlist.v
theories/P_IQN.v
theories/P_IQNrun.v
theories/P_IQNlin.v
theories/P_IQNend.v
theories/T_IQN.v
theories/M_Action.v
theories/S_Action.v
theories/P_Action.v
theories/T_Action.v
theories/P_Sched.v
theories/M_Fleet.v
theories/S_Fleet.v
theories/P_FleetPlan.v
theories/P_Fleet.v
theories/P_FleetRun.v
theories/P_FleetEnd.v
theories/T_Fleet.v
theories/M_Xml.v
theories/S_Xml.v
theories/P_Xml.v
theories/T_Xml.v
theories/M_Value.v
theories/S_Value.v
theories/P_Value.v
theories/P_Decode.v
theories/T_Value.v
theories/M_Watch.v
theories/S_Watch.v
theories/P_Watch.v
theories/P_Table.v
theories/P_Integral.v
theories/T_Watch.v
theories/M_Geo.v
theories/S_Geo.v
theories/P_Geo.v
theories/P_Axial.v
theories/T_Geo.v
theories/M_Wiring.v
theories/S_Wiring.v
theories/P_Wiring.v
theories/P_Wiring2.v
theories/P_Wiring3.v
theories/P_Wiring4.v
theories/T_Wiring.v
theories/M_Vtk.v
theories/S_Vtk.v
theories/P_Vtk.v
theories/P_VtkXml.v
theories/P_VtkPiece.v
theories/P_VtkFile.v
theories/P_VtkNames.v
theories/P_VtkLegacy.v
theories/P_VtkCsv.v
theories/P_VtkParallel.v
theories/T_Vtk.v
theories/M_Gradient.v
theories/S_Gradient.v
theories/P_Gradient.v
theories/T_Gradient.v
theories/M_Jit.v
theories/S_Jit.v
theories/P_Jit.v
theories/T_Jit.v
theories/M_Lucy.v
theories/T_Lucy.v
theories/M_Cluster.v
theories/S_Cluster.v
theories/P_Cluster.v
theories/T_Cluster.v
theories/M_Imvj.v
theories/S_Imvj.v
theories/P_Imvj.v
theories/T_Imvj.v
theories/M_Cycle.v
theories/S_Cycle.v
theories/P_Cycle.v
theories/T_Cycle.v
theories/M_Profile.v
theories/S_Profile.v
theories/P_Profile.v
theories/T_Profile.v
theories/M_Grid.v
theories/S_Grid.v
theories/P_Grid.v
theories/T_Grid.v
theories/M_Bind.v
theories/S_Bind.v
theories/P_Bind.v
theories/T_Bind.v
theories/M_SVD.v
theories/S_SVD.v
theories/P_SVD.v
theories/T_SVD.v
theories/M_Basis.v
theories/S_Basis.v
theories/P_Basis.v
theories/T_Basis.v
theories/M_ActConf.v
theories/S_ActConf.v
theories/P_ActConf.v
theories/T_ActConf.v
theories/M_MapConf.v
theories/S_MapConf.v
theories/P_MapConf.v
theories/T_MapConf.v
theories/M_Ids.v
theories/S_Ids.v
theories/P_Ids.v
theories/T_Ids.v
