-Q theories Verif

theories/Base.v
theories/Pareto_Model.v
theories/Pareto_Proofs.v
theories/Time_Model.v
theories/Time_Proofs.v
theories/P_Basic.v
theories/Raptor_Model.v
theories/Raptor_Spec.v
theories/Raptor_Base.v
theories/Raptor_Sound.v
theories/Raptor_Opt.v
theories/Raptor_Genuine.v
theories/Raptor_Final.v
theories/P_Raptor.v
theories/Dial_Model.v
theories/Dial_Proofs.v
theories/Store_Proofs.v
theories/P_Containers.v
theories/Dijkstra_Model.v
theories/Dijkstra_Proofs.v
theories/Lb_Proofs.v
theories/P_LowerBounds.v
theories/Calendar_Model.v
theories/P_Calendar.v
theories/Seq_Model.v
theories/P_Seq.v
theories/Routes_Model.v
theories/Routes_Proofs.v
theories/P_Routes.v
theories/Utc_Model.v
theories/Utc_Proofs.v
theories/P_Utc.v
theories/Block_Model.v
theories/P_Block.v
theories/Query_Model.v
theories/P_Query.v
theories/Start_Model.v
theories/P_Start.v
theories/Search_Model.v
theories/P_Search.v
theories/Finish_Model.v
theories/P_Finish.v
theories/Rt_Model.v
theories/Rt_Proofs.v
theories/P_Rt.v
theories/P_RtDelay.v
theories/P_RtMsg.v
theories/Tb_Model.v
theories/P_Tb.v
theories/Interp_Model.v
theories/P_Interp.v
theories/Foot_Model.v
theories/Foot_Proofs.v
theories/P_Foot.v
theories/P_Match.v
theories/Tbp_Model.v
theories/Tbp_Proofs.v
theories/Tbq_Model.v
theories/P_Tbp.v
theories/Tbq_Proofs.v
theories/P_Tbq.v
theories/Rec_Model.v
theories/Rec_Spec.v
theories/Rec_Proofs.v
theories/Rec_Opt.v
theories/P_Rec.v
theories/Rec_Support.v
theories/Rec_Complete.v
theories/P_RecComplete.v
theories/Raptor_Bound.v
theories/Full_Model.v
theories/Full_Base.v
theories/Full_Spec.v
theories/Full_Proofs.v
theories/P_Full.v
theories/Loaded_Model.v
theories/Loaded_Spec.v
theories/Loaded_Proofs.v
theories/P_Loaded.v
theories/RtSearch_Model.v
theories/RtSearch_Spec.v
theories/RtSearch_Proofs.v
theories/RtSearch_Lb.v
theories/P_RaptorRt.v
theories/Ota_Model.v
theories/Ota_Proofs.v
theories/P_OneToAll.v
theories/Fd_Model.v
theories/Fd_Proofs.v
theories/P_FastestDirect.v
theories/P_OnTrip.v
theories/Via_Model.v
theories/Via_Spec.v
theories/Via_Expand.v
theories/Via_Sound.v
theories/Via_Genuine.v
theories/Via_Opt.v
theories/Via_Final.v
theories/P_Via.v
theories/Pong_Spec.v
theories/Pong_Dual.v
theories/Pong_Model.v
theories/Pong_Loop.v
theories/Prune_Model.v
theories/Prune_Sound.v
theories/Prune_Genuine.v
theories/Prune_Opt.v
theories/Pong_Late.v
theories/Pong_Inst.v
theories/Pong_Search.v
theories/P_Pong.v
theories/Direct_Model.v
theories/Direct_Spec.v
theories/Direct_Proofs.v
theories/Direct_Stream.v
theories/Direct_Order.v
theories/P_Direct.v
theories/Alt_Model.v
theories/Alt_Spec.v
theories/Alt_Proofs.v
theories/Alt_Search.v
theories/P_Alt.v
theories/Seated_Model.v
theories/Seated_Spec.v
theories/Seated_Proofs.v
theories/Seated_Dfs.v
theories/Seated_Loop.v
theories/P_Seated.v
theories/Resolve_Model.v
theories/Resolve_Spec.v
theories/Resolve_Proofs.v
theories/P_Resolve.v
theories/Vp_Model.v
theories/P_Vp.v
theories/Hrd_Model.v
theories/Hrd_Bits.v
theories/Hrd_Spec.v
theories/Hrd_Utc.v
theories/P_Hrd.v
theories/Fares_Model.v
theories/P_Fares.v
theories/P_FareTransfers.v
theories/Alert_Model.v
theories/P_Alert.v
theories/Vdv_Model.v
theories/P_Vdv.v
theories/VdvMatch_Model.v
theories/P_VdvMatch.v
theories/Stops_Model.v
theories/P_Stops.v
theories/TdLeg_Model.v
theories/P_TdLeg.v
theories/Link_Model.v
theories/P_Link.v
theories/P_Metrics.v
theories/I18n_Model.v
theories/P_I18n.v
theories/Shapes_Model.v
theories/P_Shapes.v
theories/Bbox_Model.v
theories/P_Bbox.v
theories/Polyline_Model.v
theories/P_Polyline.v
theories/Ticket_Model.v
theories/P_Ticket.v
