-Q theories Verif
theories/Base/Res.v
theories/Base/Params.v
theories/Base/Release.v
theories/Base/Assoc.v
theories/Base/ListX.v
theories/Topology/Model.v
theories/Topology/Spec.v
theories/Topology/Proofs.v
theories/Nodes/Model.v
theories/Nodes/Spec.v
theories/Nodes/Proofs.v
theories/Nodes/CoverProofs.v
theories/Nodes/CreateProofs.v
theories/Intersections/Model.v
theories/Intersections/Proofs.v
theories/Transposition/Model.v
theories/Transposition/Spec.v
theories/Transposition/Proofs.v
theories/Scoring/Model.v
theories/Scoring/Release.v
theories/Scoring/Spec.v
theories/Scoring/WeightProofs.v
theories/Scoring/IndexProofs.v
theories/Scoring/CollectProofs.v
theories/Scoring/WindowProofs.v
theories/Scoring/Overlap.v
theories/Scoring/OverlapProofs.v
theories/Scoring/ClusterProofs.v
theories/Scoring/RenameProofs.v
theories/Scoring/AssembleProofs.v
theories/Pca/Single.v
theories/Pca/SingleSpec.v
theories/Pca/SingleProofs.v
theories/Pca/SingleRuns.v
theories/Pca/SingleHosts.v
theories/Properties/Topology.v
theories/Listener/Model.v
theories/Listener/Spec.v
theories/Listener/Proofs.v
theories/Listener/Repeats.v
theories/Listener/Subs.v
theories/Properties/Listener.v
theories/Reader/Model.v
theories/Reader/Release.v
theories/Reader/Spec.v
theories/Reader/Proofs.v
theories/Reader/Exact.v
theories/Properties/Reader.v
theories/Stats/Model.v
theories/Stats/Release.v
theories/Stats/Spec.v
theories/Stats/Proofs.v
theories/Stats/Excess.v
theories/Stats/Single.v
theories/Stats/SingleSpec.v
theories/Stats/SingleProofs.v
theories/Properties/Stats.v
theories/Preprocess/Model.v
theories/Preprocess/Proofs.v
theories/Properties/Preprocess.v
theories/PhaseSpace/Model.v
theories/PhaseSpace/Release.v
theories/PhaseSpace/Spec.v
theories/PhaseSpace/Proofs.v
theories/Properties/PhaseSpace.v
theories/Manager/Model.v
theories/Manager/Proofs.v
theories/Properties/Manager.v
theories/Pca/Model.v
theories/Pca/Spec.v
theories/Pca/Tree.v
theories/Pca/Abs.v
theories/Pca/Proofs.v
theories/Pca/Help.v
theories/Pca/Canon.v
theories/Pca/Arrival.v
theories/Pca/HostsArrival.v
theories/Pca/Order.v
theories/Pca/Lost.v
theories/Pca/One.v
theories/Pca/Rounds.v
theories/Pca/Threads.v
theories/Pca/Gram.v
theories/Pca/GramSpec.v
theories/Pca/GramProofs.v
theories/Pca/Chunks.v
theories/Pca/Exec.v
theories/Properties/Pca.v
theories/Rotation/Model.v
theories/Rotation/Proofs.v
theories/Transition/Model.v
theories/Transition/Spec.v
theories/Transition/Proofs.v
theories/Geometry/Model.v
theories/Geometry/Spec.v
theories/Geometry/Proofs.v
theories/Geometry/Crossing.v
theories/Geometry/Single.v
theories/Geometry/SingleProofs.v
theories/Protocol/Model.v
theories/Base/Float32.v
theories/Base/Float32Proofs.v
theories/Normalize/Model.v
theories/Normalize/Proofs.v
theories/Normalize/ScoreProofs.v
theories/Protocol/Exchange.v
theories/Protocol/ExchangeExec.v
theories/Protocol/ExchangeProofs.v
theories/Protocol/Ring.v
theories/Protocol/RingProofs.v
theories/Protocol/Pool.v
theories/Protocol/PoolProofs.v
theories/Protocol/Workers.v
theories/Protocol/WorkersProofs.v
theories/Protocol/RingExec.v
theories/Protocol/Spec.v
theories/Properties/Transition.v
theories/Properties/Geometry.v
theories/Properties/Protocol.v
theories/Segmentation/Model.v
theories/Segmentation/Spec.v
theories/Segmentation/Blocks.v
theories/Segmentation/Proofs.v
theories/Segmentation/PathProofs.v
theories/Segmentation/Handover.v
theories/Segmentation/HandoverProofs.v
theories/Segmentation/HandoverExact.v
theories/Properties/Segmentation.v
theories/Edges/Model.v
theories/Edges/Spec.v
theories/Edges/OrdererProofs.v
theories/Edges/Proofs.v
theories/Edges/ArcProofs.v
theories/Edges/HostProofs.v
theories/Properties/Edges.v
theories/Properties/Intersections.v
theories/Properties/Nodes.v
theories/Properties/Transposition.v
theories/Properties/Scoring.v
theories/Properties/ClusterScoring.v
theories/Properties/Normalize.v
theories/Correction/Model.v
theories/Correction/Spec.v
theories/Correction/Proofs.v
theories/Properties/Correction.v
theories/Pipeline/Model.v
theories/Pipeline/Spec.v
theories/Pipeline/Proofs.v
theories/Properties/Pipeline.v
theories/Kde/Model.v
theories/Kde/Spec.v
theories/Kde/System.v
theories/Kde/Float.v
theories/Kde/PeakProofs.v
theories/Kde/SystemProofs.v
theories/Kde/FloatProofs.v
theories/Properties/Kde.v
theories/Wrapper/Model.v
theories/Properties/Wrapper.v
theories/Contribution/Model.v
theories/Contribution/Spec.v
theories/Contribution/Proofs.v
theories/Contribution/SumProofs.v
theories/Contribution/FileProofs.v
theories/Properties/Contribution.v
theories/Shutdown/Model.v
theories/Shutdown/Proofs.v
theories/Shutdown/Early.v
theories/Properties/Shutdown.v
theories/Pipeline/RunProofs.v
theories/Protocol/LateProofs.v
theories/Pipeline/Cluster.v
theories/Pipeline/ClusterSpec.v
theories/Pipeline/ClusterProofs.v
theories/Properties/ClusterPipeline.v
theories/Pca/Components.v
theories/Pca/ComponentsSpec.v
theories/Pca/ComponentsProofs.v
theories/Pca/ComponentsExact.v
theories/Properties/Components.v
theories/Front/Proofs.v
theories/Front/Single.v
theories/Front/SingleSpec.v
theories/Front/SingleProofs.v
theories/Front/SingleAlign.v
theories/Front/SilentSpec.v
theories/Front/SilentProofs.v
theories/Front/Spec.v
theories/Front/Model.v
theories/Properties/Front.v
theories/Kde/Real.v
theories/Kde/RealSpec.v
theories/Kde/RealProofs.v
theories/Kde/TwoPoints.v
theories/Properties/KdeReal.v
theories/Intersections/Real.v
theories/Intersections/RealSpec.v
theories/Intersections/RealProofs.v
theories/Properties/Crossings.v
theories/Analysis/Model.v
theories/Analysis/Spec.v
theories/Analysis/Proofs.v
theories/Analysis/Case.v
theories/Properties/Analysis.v
theories/Pipeline/Correcting.v
theories/Pipeline/CorrectingProofs.v
theories/Analysis/Correcting.v
theories/Analysis/CorrectingCase.v
theories/Properties/Correcting.v
theories/Pipeline/Natural.v
theories/Analysis/Units.v
theories/Properties/Units.v
theories/Analysis/Library.v
theories/Properties/Library.v
theories/Analysis/Resting.v
theories/Properties/Resting.v
theories/Properties/Missing.v
theories/Properties/Silent.v
theories/Properties/Wide.v
theories/Properties/Infinite.v
theories/Properties/RestingCorrected.v
theories/Properties/LateStart.v
theories/Properties/LateWeights.v
theories/Properties/Lengths.v
theories/Properties/LastRow.v
theories/Analysis/Columns.v
theories/Properties/Columns.v
theories/Manager/Collect.v
theories/Manager/CollectSpec.v
theories/Manager/CollectProofs.v
theories/Manager/CollectMain.v
theories/Manager/ArrayProofs.v
theories/Manager/Layout.v
theories/Manager/LayoutProofs.v
theories/Interface/Model.v
theories/Interface/Proofs.v
theories/Properties/Collect.v
theories/Properties/Layout.v
theories/Properties/Single.v
theories/Properties/StatsSingle.v
theories/Properties/FromFile.v
theories/Entry/Model.v
theories/Entry/Proofs.v
theories/Output/Model.v
theories/Output/Proofs.v
theories/Properties/Output.v
theories/Properties/Entry.v
theories/Properties/EndToEnd.v
theories/Properties/PcaSingle.v
theories/Properties/Workers.v
theories/Properties/Release.v
theories/Properties/SingleStored.v
theories/Properties/ReleaseReader.v
theories/Properties/ReleaseStats.v
theories/Properties/ReleaseLater.v
