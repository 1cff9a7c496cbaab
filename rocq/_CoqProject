-Q theories Verif
theories/Base.v
theories/ListFacts.v
theories/Model_Action.v
theories/Model_ActionExec.v
theories/Model_ActionExec2.v
theories/Model_ActionTrans.v
theories/Model_Async.v
theories/Model_AsyncNet.v
theories/Model_Container.v
theories/Model_Data.v
theories/Model_Double.v
theories/Model_Group.v
theories/Model_KVS.v
theories/Model_Layout.v
theories/Model_Location.v
theories/Model_Log.v
theories/Model_Mem.v
theories/Model_MpiComm.v
theories/Model_MpiPrepare.v
theories/Model_Net.v
theories/Model_Parting.v
theories/Model_Partitioner.v
theories/Model_RangeList.v
theories/Model_Reservation.v
theories/Model_Resize.v
theories/Model_Single.v
theories/Model_Space.v
theories/Model_SpaceStore.v
theories/Model_SpaceSync.v
theories/Model_Startup.v
theories/Model_Switch.v
theories/Model_Tcp2.v
theories/Model_Tcp2Exec.v
theories/Model_Tcp2Sync.v
theories/Model_Transition.v
theories/Model_Type.v
theories/Proof_Action1.v
theories/Proof_Action2.v
theories/Proof_Action3.v
theories/Proof_Action4.v
theories/Proof_Action5.v
theories/Proof_AllReduce.v
theories/Proof_Alloc.v
theories/Proof_Async1.v
theories/Proof_Async2.v
theories/Proof_Async3.v
theories/Proof_AsyncNet1.v
theories/Proof_AsyncNet2.v
theories/Proof_AsyncNet3.v
theories/Proof_Block.v
theories/Proof_BlockExact.v
theories/Proof_Comb1.v
theories/Proof_Comb2.v
theories/Proof_Comb3.v
theories/Proof_Comb4.v
theories/Proof_Comb5.v
theories/Proof_Comb6.v
theories/Proof_Comb7.v
theories/Proof_Comb8.v
theories/Proof_Container.v
theories/Proof_Container2.v
theories/Proof_CopyArea.v
theories/Proof_Cover.v
theories/Proof_Data.v
theories/Proof_Data2.v
theories/Proof_Data3.v
theories/Proof_Data4.v
theories/Proof_Data5.v
theories/Proof_Data6.v
theories/Proof_Filter.v
theories/Proof_Grid.v
theories/Proof_Group.v
theories/Proof_Group2.v
theories/Proof_Group3.v
theories/Proof_KVS.v
theories/Proof_KVS2.v
theories/Proof_KVS3.v
theories/Proof_KVS4.v
theories/Proof_KVS5.v
theories/Proof_KVS6.v
theories/Proof_KVS7.v
theories/Proof_KVS8.v
theories/Proof_Layout.v
theories/Proof_Layout2.v
theories/Proof_Layout3.v
theories/Proof_Layout4.v
theories/Proof_Layout5.v
theories/Proof_Layout6.v
theories/Proof_Layout7.v
theories/Proof_Layout8.v
theories/Proof_Location1.v
theories/Proof_Location2.v
theories/Proof_Location3.v
theories/Proof_Log.v
theories/Proof_Migrate.v
theories/Proof_MpiComm.v
theories/Proof_Net.v
theories/Proof_Parting.v
theories/Proof_Partitioner.v
theories/Proof_Partitioner2.v
theories/Proof_Partitioner3.v
theories/Proof_Partitioner4.v
theories/Proof_Prepare1.v
theories/Proof_Prepare2.v
theories/Proof_Prepare3.v
theories/Proof_Prepare4.v
theories/Proof_Prepare5.v
theories/Proof_Prepare6.v
theories/Proof_Prepare7.v
theories/Proof_RangeList.v
theories/Proof_RangeList2.v
theories/Proof_RangeList3.v
theories/Proof_RangeList4.v
theories/Proof_RangeList5.v
theories/Proof_Reassign.v
theories/Proof_Reduce1.v
theories/Proof_Reduce2.v
theories/Proof_Reduce3.v
theories/Proof_Reduce4.v
theories/Proof_Reservation.v
theories/Proof_Reservation2.v
theories/Proof_Reservation3.v
theories/Proof_Reservation4.v
theories/Proof_Reservation5.v
theories/Proof_Resize1.v
theories/Proof_Resize2.v
theories/Proof_Resize3.v
theories/Proof_Resize4.v
theories/Proof_Resize5.v
theories/Proof_Resize6.v
theories/Proof_Resize7.v
theories/Proof_Resize8.v
theories/Proof_Resize9.v
theories/Proof_Single.v
theories/Proof_Space.v
theories/Proof_SpaceStore.v
theories/Proof_SpaceSync1.v
theories/Proof_SpaceSync2.v
theories/Proof_Startup.v
theories/Proof_Startup2.v
theories/Proof_Switch1.v
theories/Proof_Switch10.v
theories/Proof_Switch2.v
theories/Proof_Switch3.v
theories/Proof_Switch4.v
theories/Proof_Switch5.v
theories/Proof_Switch6.v
theories/Proof_Switch7.v
theories/Proof_Switch8.v
theories/Proof_Switch9.v
theories/Proof_SwitchNd1.v
theories/Proof_SwitchNd2.v
theories/Proof_SwitchNd3.v
theories/Proof_SwitchNd4.v
theories/Proof_SwitchNd5.v
theories/Proof_Tcp2.v
theories/Proof_Tcp2Exec1.v
theories/Proof_Tcp2Exec2.v
theories/Proof_Tcp2Exec3.v
theories/Proof_Tcp2Exec4.v
theories/Proof_Tcp2Exec5.v
theories/Proof_Tcp2Exec6.v
theories/Proof_Tcp2Exec7.v
theories/Proof_Tcp2Exec8.v
theories/Proof_Tcp2Sync1.v
theories/Proof_Tcp2Sync2.v
theories/Proof_Tcp2Sync3.v
theories/Proof_Tcp2Sync4.v
theories/Proof_Tcp2Sync5.v
theories/Proof_Tcp2Sync6.v
theories/Proof_Tcp3.v
theories/Proof_Tcp4.v
theories/Proof_Tcp5.v
theories/Proof_Trans1.v
theories/Proof_Trans2.v
theories/Proof_Trans3.v
theories/Proof_Trans4.v
theories/Proof_Trans5.v
theories/Proof_Trans6.v
theories/Proof_Trans7.v
theories/Proof_Trans8.v
theories/Proof_Type.v
theories/Proof_Type2.v
theories/Proof_Type3.v
theories/Prop_AllReduce.v
theories/Prop_Alloc.v
theories/Prop_Async.v
theories/Prop_Combine.v
theories/Prop_Container.v
theories/Prop_Data.v
theories/Prop_Group.v
theories/Prop_KVS.v
theories/Prop_Layout.v
theories/Prop_Location.v
theories/Prop_Log.v
theories/Prop_MpiAsync.v
theories/Prop_MpiComm.v
theories/Prop_MpiPrepare.v
theories/Prop_Parting.v
theories/Prop_Partitioner.v
theories/Prop_RangeList.v
theories/Prop_Reduce.v
theories/Prop_Reservation.v
theories/Prop_Resize.v
theories/Prop_Sched.v
theories/Prop_Single.v
theories/Prop_Space.v
theories/Prop_SpaceStore.v
theories/Prop_SpaceSync.v
theories/Prop_Startup.v
theories/Prop_Switch.v
theories/Prop_Tcp2.v
theories/Prop_Tcp2Exec.v
theories/Prop_Tcp2Nd.v
theories/Prop_Tcp2Sync.v
theories/Prop_Transition.v
theories/Prop_Type.v
theories/Spec_Action.v
theories/Spec_ActionTrans.v
theories/Spec_AllReduce.v
theories/Spec_Alloc.v
theories/Spec_Async.v
theories/Spec_AsyncNet.v
theories/Spec_Container.v
theories/Spec_Data.v
theories/Spec_Group.v
theories/Spec_KVS.v
theories/Spec_Layout.v
theories/Spec_Location.v
theories/Spec_Log.v
theories/Spec_MpiComm.v
theories/Spec_MpiPrepare.v
theories/Spec_Net.v
theories/Spec_Parting.v
theories/Spec_Partitioner.v
theories/Spec_RangeList.v
theories/Spec_Reduce.v
theories/Spec_Reservation.v
theories/Spec_Resize.v
theories/Spec_Single.v
theories/Spec_Space.v
theories/Spec_SpaceStore.v
theories/Spec_SpaceSync.v
theories/Spec_Switch.v
theories/Spec_SwitchNd.v
theories/Spec_Tcp2.v
theories/Spec_Tcp2Exec.v
theories/Spec_Tcp2Sync.v
theories/Spec_Transition.v
theories/Spec_Type.v
