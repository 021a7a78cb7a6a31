-Q theories Verif
theories/Spec/Basic.v
theories/Model/Mymath.v
theories/Proofs/MymathProofs.v
theories/Proofs/MymathProofs2.v
theories/Props/PropsMymath.v
theories/Model/ListMem.v
theories/Model/Hash.v
theories/Spec/Lookup.v
theories/Proofs/ListMemProofs.v
theories/Proofs/HashProofs.v
theories/Props/PropsHash.v
theories/Spec/Comm.v
theories/Model/Run.v
theories/Model/Exchange.v
theories/Spec/Exchange.v
theories/Proofs/ExchangeProofs.v
theories/Proofs/ExchangeProofs2.v
theories/Proofs/ExchangeProofs3.v
theories/Props/PropsExchange.v
theories/Model/ParticleExchange.v
theories/Spec/Query.v
theories/Proofs/RestoreProofs.v
theories/Proofs/QueryProofs.v
theories/Proofs/QueryProofs2.v
theories/Proofs/QueryProofs3.v
theories/Props/PropsQuery.v
theories/Model/Mpi.v
theories/Proofs/MpiProofs.v
theories/Props/PropsMpi.v
theories/Model/Subhalo.v
theories/Spec/Members.v
theories/Proofs/MemberProofs.v
theories/Proofs/CentralProofs.v
theories/Proofs/CentralProofs2.v
theories/Props/PropsMembers.v
theories/Proofs/ListExtra.v
theories/Model/Tracks.v
theories/Spec/Tracks.v
theories/Proofs/TrackProofs.v
theories/Props/PropsTracks.v
theories/Spec/Forest.v
theories/Model/Nest.v
theories/Proofs/TreeProofs.v
theories/Proofs/NestProofs.v
theories/Spec/Nesting.v
theories/Proofs/NestProofs2.v
theories/Proofs/NestProofs3.v
theories/Proofs/NestProofs4.v
theories/Proofs/NestProofs5.v
theories/Proofs/LocalizeProofs.v
theories/Proofs/ForestSteps.v
theories/Model/UpdateTracks.v
theories/Model/UpdateInclusive.v
theories/Spec/NestHistory.v
theories/Proofs/HistorySteps.v
theories/Proofs/HistorySteps2.v
theories/Proofs/ReachProofs.v
theories/Proofs/HistoryProofs.v
theories/Proofs/NestFinal.v
theories/Proofs/GlueProofs.v
theories/Proofs/GlueTree.v
theories/Model/Mask.v
theories/Proofs/HaloWork.v
theories/Spec/Masking.v
theories/Proofs/MaskProofs.v
theories/Proofs/MaskFinal.v
theories/Proofs/RoundTrip.v
theories/Props/PropsNest.v
theories/Props/PropsMask.v
theories/Model/Unbind.v
theories/Model/UnbindFloat.v
theories/Model/IntCounts.v
theories/Model/Sink.v
theories/Spec/Unbinding.v
theories/Proofs/PartitionProofs.v
theories/Proofs/UnbindProofs.v
theories/Proofs/StripProofs.v
theories/Proofs/RefineProofs.v
theories/Proofs/UnbindFinal.v
theories/Props/PropsUnbind.v
theories/Model/Merge.v
theories/Model/Work.v
theories/Model/Variants.v
theories/Spec/Sinking.v
theories/Spec/Sink.v
theories/Proofs/DetectProofs.v
theories/Proofs/MergeProofs.v
theories/Proofs/MergeFinal.v
theories/Proofs/WorkProofs.v
theories/Spec/Float.v
theories/Spec/Ownership.v
theories/Proofs/FloatProofs.v
theories/Proofs/UnbindFloatProofs.v
theories/Proofs/IntCountsProofs.v
theories/Proofs/SinkProofs.v
theories/Proofs/OwnProofs.v
theories/Props/PropsMerge.v
theories/Model/Tree.v
theories/Spec/Octree.v
theories/Proofs/OctProofs.v
theories/Proofs/TreeInsert.v
theories/Proofs/TreeBuild.v
theories/Proofs/TreeWalk.v
theories/Proofs/TreeFinal.v
theories/Proofs/TreeResults.v
theories/Props/PropsTree.v
theories/Model/LinkedList.v
theories/Spec/Chains.v
theories/Proofs/LinkProofs.v
theories/Proofs/LinkMerge.v
theories/Proofs/LinkSearch.v
theories/Proofs/LinkGroups.v
theories/Proofs/LinkPara.v
theories/Props/PropsLink.v
theories/Model/Frames.v
theories/Spec/Frames.v
theories/Proofs/FrameProofs.v
theories/Proofs/FrameFinal.v
theories/Props/PropsFrames.v
theories/Model/Hosts.v
theories/Spec/Hosts.v
theories/Proofs/HostProofs.v
theories/Props/PropsHosts.v
theories/Model/Iterators.v
theories/Props/PropsIter.v
theories/Model/Profile.v
theories/Spec/Profile.v
theories/Proofs/ProfileProofs.v
theories/Props/PropsProfile.v
theories/Model/Cosmology.v
theories/Spec/Cosmology.v
theories/Proofs/CosmologyProofs.v
theories/Props/PropsCosmology.v
theories/Model/Reader.v
theories/Spec/Reader.v
theories/Proofs/ReaderProofs.v
theories/Props/PropsReader.v
theories/Props/PropsEnergies.v
theories/Model/Groups.v
theories/Spec/Groups.v
theories/Proofs/GroupProofs.v
theories/Props/PropsGroups.v
theories/Model/Catalogue.v
theories/Spec/Catalogue.v
theories/Proofs/CatalogueProofs.v
theories/Proofs/RestartProofs.v
theories/Props/PropsCatalogue.v
theories/Model/Config.v
theories/Spec/Config.v
theories/Proofs/ConfigProofs.v
theories/Proofs/ConfigValueProofs.v
theories/Model/Startup.v
theories/Spec/Startup.v
theories/Proofs/StartupProofs.v
theories/Props/PropsConfig.v
theories/Model/Apostle.v
theories/Spec/Apostle.v
theories/Proofs/ApostleProofs.v
theories/Proofs/ApostleProofs2.v
theories/Proofs/ApostleProofs3.v
theories/Props/PropsApostle.v
theories/Model/HaloExchange.v
theories/Spec/HaloUpdate.v
theories/Proofs/HaloExchangeProofs.v
theories/Props/PropsHaloUpdate.v
theories/Spec/Reporting.v
theories/Spec/Program.v
theories/Proofs/ReportProofs.v
theories/Props/PropsReport.v
theories/Model/Program.v
theories/Proofs/WorkParts.v
theories/Proofs/KeepProofs.v
theories/Proofs/ProgramLoad.v
theories/Proofs/ProgramHosts.v
theories/Proofs/OwnWork.v
theories/Proofs/ProgramSteps.v
theories/Proofs/ProgramLoop.v
theories/Props/PropsProgram.v
theories/Props/PropsOwnership.v
theories/Props/PropsVariants.v
theories/Props/PropsInclusive.v
theories/Props/PropsFloat.v
theories/Props/PropsUnbindFloat.v
theories/Props/PropsIntCounts.v
theories/Props/PropsSink.v
theories/Model/Gadget.v
theories/Spec/Gadget.v
theories/Proofs/GadgetProofs.v
theories/Proofs/GadgetFile.v
theories/Proofs/GadgetLoad.v
theories/Props/PropsGadget.v
theories/Model/GroupFiles.v
theories/Spec/GroupFiles.v
theories/Proofs/GroupFileProofs.v
theories/Props/PropsGroupFiles.v
theories/Model/Counts.v
theories/Spec/Counts.v
theories/Proofs/CountProofs.v
theories/Props/PropsCounts.v
theories/Model/Means.v
theories/Spec/Means.v
theories/Proofs/MeanProofs.v
theories/Props/PropsMeans.v
theories/Model/FileNames.v
theories/Proofs/FileNameProofs.v
theories/Props/PropsFileNames.v
theories/Model/ApostleFiles.v
theories/Spec/ApostleFiles.v
theories/Proofs/ApostleFileProofs.v
theories/Props/PropsApostleFiles.v
theories/Model/Purge.v
theories/Spec/Purge.v
theories/Proofs/PurgeProofs.v
theories/Proofs/InclusiveRun.v
theories/Props/PropsPurge.v
theories/Model/MpiTypes.v
theories/Spec/MpiTypes.v
theories/Proofs/MpiTypeProofs.v
theories/Props/PropsMpiTypes.v
theories/Model/Sph.v
theories/Spec/Sph.v
theories/Proofs/SphProofs.v
theories/Props/PropsSph.v
theories/Model/HdfTypes.v
theories/Spec/HdfTypes.v
theories/Proofs/HdfTypeProofs.v
theories/Props/PropsHdfTypes.v
theories/Spec/Inclusive.v
theories/Spec/Leading.v
theories/Proofs/InclusiveProofs.v
theories/Proofs/KeepWork.v
theories/Model/Threads.v
theories/Model/UpdateThreads.v
theories/Spec/Races.v
theories/Spec/Counters.v
theories/Proofs/ThreadProofs.v
theories/Proofs/WalkProofs.v
theories/Proofs/LoopSafety.v
theories/Proofs/HelperLoops.v
theories/Proofs/CrewProofs.v
theories/Proofs/FeedLoops.v
theories/Proofs/UpdateLoops.v
theories/Proofs/GlobalLoop.v
theories/Props/PropsThreads.v
theories/Props/PropsThreads2.v
theories/Model/TableThreads.v
theories/Proofs/TableLoops.v
theories/Proofs/TableLoops2.v
theories/Props/PropsTableThreads.v
theories/Props/PropsInclusiveRun.v
theories/Proofs/ScheduleProofs.v
theories/Proofs/ScheduleStages.v
theories/Proofs/ScheduleInclusive.v
theories/Spec/Schedule.v
theories/Proofs/ScheduleRun.v
theories/Props/PropsSchedule.v
theories/Model/Combine.v
theories/Spec/Combine.v
theories/Proofs/CombineProofs.v
theories/Props/PropsCombine.v
theories/Model/SnapshotList.v
theories/Spec/SnapshotList.v
theories/Proofs/SnapshotListProofs.v
theories/Props/PropsSnapshotList.v
theories/Model/PartitionSort.v
theories/Spec/PartitionSort.v
theories/Proofs/PartitionSortProofs.v
theories/Props/PropsPartitionSort.v
theories/Model/Timing.v
theories/Spec/Timing.v
theories/Props/PropsTiming.v
theories/Model/Eigen.v
theories/Spec/Eigen.v
theories/Proofs/EigenProofs.v
theories/Props/PropsEigen.v
