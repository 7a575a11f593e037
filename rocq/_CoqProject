-Q theories Verif
theories/CircSpec.v
theories/CircModel.v
theories/CircVocab.v
theories/CircProofs.v
theories/CircFacts.v
theories/LayoutModel.v
theories/LayoutProofs.v
theories/CircProps.v
theories/Prop_Circ.v
theories/Base.v
theories/LevelModel.v
theories/EventModel.v
theories/EventProofs.v
theories/Prop_Event.v
theories/LevelProofs.v
theories/Prop_Level.v
theories/DecFacts.v
theories/RecordModel.v
theories/RecordSpec.v
theories/RecordProofs.v
theories/RecordRead.v
theories/SinkConfig.v
theories/RecordProps.v
theories/PaintSpec.v
theories/PaintProofs.v
theories/Prop_Record.v
theories/SyslogModel.v
theories/SyslogSpec.v
theories/SyslogProofs.v
theories/SyslogWitness.v
theories/Prop_Syslog.v
theories/SinkModel.v
theories/SinkSpec.v
theories/SinkProofs.v
theories/SinkLabels.v
theories/SinkLife.v
theories/SinkProps.v
theories/SinkProgress.v
theories/SinkReturn.v
theories/SinkSolo.v
theories/SinkZero.v
theories/SinkRotate.v
theories/SinkForget.v
theories/SinkNested.v
theories/SinkWaitFree.v
theories/SinkUnopened.v
theories/SinkFairSpec.v
theories/SinkFair.v
theories/SinkMore.v
theories/SinkWitness.v
theories/SinkAsyncSpec.v
theories/SinkAsync.v
theories/Prop_Sink.v
theories/Prop_Async.v
theories/Prop_Nested.v
theories/Prop_WaitFree.v
theories/Prop_Unopened.v
theories/Prop_Fair.v
theories/TreeModel.v
theories/TreeSpec.v
theories/TreeProofs.v
theories/Prop_Tree.v
theories/SysModel.v
theories/SysSpec.v
theories/SysBase.v
theories/SysSpread.v
theories/SysInv.v
theories/SysOps.v
theories/SysSteps.v
theories/SysProps.v
theories/SysMore.v
theories/SysFrame.v
theories/SysFuel.v
theories/SysWitness.v
theories/SysOnce.v
theories/SysTwoSpec.v
theories/SysTwo.v
theories/Prop_Sys.v
theories/Prop_Two.v
theories/YamlModel.v
theories/YamlSpec.v
theories/YamlFacts.v
theories/YamlRead.v
theories/YamlSinks.v
theories/YamlGroups.v
theories/YamlDoc.v
theories/YamlTree.v
theories/YamlOutSpec.v
theories/YamlOut.v
theories/YamlActSpec.v
theories/YamlTrace.v
theories/YamlActs.v
theories/YamlProps.v
theories/YamlConf.v
theories/YamlKeep.v
theories/YamlLevel.v
theories/YamlMore.v
theories/YamlWitness.v
theories/Prop_Yaml.v
theories/YamlTidySpec.v
theories/YamlTidy.v
theories/Prop_Tidy.v
theories/UtilModel.v
theories/UtilSpec.v
theories/UtilProofs.v
theories/Prop_Util.v
theories/TimeModel.v
theories/TimeSpec.v
theories/TimeProofs.v
theories/Prop_Time.v
theories/GroupModel.v
theories/GroupSpec.v
theories/GroupProofs.v
theories/Prop_Group.v
theories/FullModel.v
theories/FullSpec.v
theories/FullProofs.v
theories/FullProps.v
theories/Prop_Full.v
theories/EndModel.v
theories/EndSpec.v
theories/EndProofs.v
theories/LifeModel.v
theories/LifeSpec.v
theories/LifeProofs.v
theories/LifeWitness.v
theories/Prop_Life.v
theories/LogModel.v
theories/LogSpec.v
theories/LogProofs.v
theories/LogWitness.v
theories/Prop_Log.v
theories/WeakModel.v
theories/WeakSpec.v
theories/WeakProofs.v
theories/Prop_Weak.v
theories/RaceModel.v
theories/RaceSpec.v
theories/RaceProofs.v
theories/RaceRun.v
theories/RaceSys.v
theories/RaceLink.v
theories/RaceAtomic.v
theories/Prop_Race.v
theories/ClockModel.v
theories/ClockSpec.v
theories/ClockProofs.v
theories/ClockEnd.v
theories/ClockRotate.v
theories/ClockRotateGo.v
theories/ClockSleep.v
theories/ClockWitness.v
theories/Prop_Clock.v
theories/TextModel.v
theories/TextSpec.v
theories/TextProofs.v
theories/Prop_Text.v
theories/PoolModel.v
theories/PoolSpec.v
theories/PoolProofs.v
theories/PoolFair.v
theories/SinkEnd.v
theories/PoolEnd.v
theories/PoolCallSpec.v
theories/PoolCall.v
theories/Prop_Pool.v
theories/Prop_PoolCall.v
theories/StampModel.v
theories/StampSpec.v
theories/StampProofs.v
theories/CoverProofs.v
theories/Prop_Stamp.v
theories/IoModel.v
theories/IoSpec.v
theories/IoProofs.v
theories/Prop_Io.v
theories/ThrowModel.v
theories/ThrowSpec.v
theories/ThrowProofs.v
theories/Prop_Throw.v
theories/ShareModel.v
theories/ShareSpec.v
theories/ShareProofs.v
theories/Prop_Share.v
theories/ConsModel.v
theories/ConsSpec.v
theories/ConsProofs.v
theories/ConsShown.v
theories/Prop_Cons.v
theories/SyslogRunModel.v
theories/SyslogRunSpec.v
theories/SyslogRunProofs.v
theories/SyslogRunWitness.v
theories/Prop_SyslogRun.v
theories/DeployModel.v
theories/DeploySpec.v
theories/DeployProofs.v
theories/DeployEnd.v
theories/DeployGroup.v
theories/StackModel.v
theories/StackProofs.v
theories/StackDoc.v
theories/DeployWitness.v
theories/Prop_ReadBack.v
theories/Prop_End.v
theories/Prop_Deploy.v
theories/Prop_Stack.v
theories/FullEnd.v
theories/StackEnd.v
theories/StackFin.v
theories/Prop_StackEnd.v
theories/StackFairSpec.v
theories/StackFair.v
theories/StackFairFin.v
theories/Prop_StackFair.v
theories/FullLive.v
theories/Prop_FullLive.v
theories/Prop_Asked.v
theories/TimeClockSpec.v
theories/TimeClock.v
theories/Prop_TimeClock.v
theories/ConsoleSpec.v
theories/ConsoleRead.v
theories/ConsoleDoc.v
theories/AnySpec.v
theories/AnyReplay.v
theories/AnyDoc.v
theories/AnyWarn.v
theories/AnyLater.v
theories/Prop_Any.v
theories/SizesSpec.v
theories/SizesProofs.v
theories/Prop_Sizes.v
