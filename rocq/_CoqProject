-Q theories Verif
theories/Spec.v
theories/Base.v
theories/DomModel.v
theories/DomProofs.v
theories/DomProps.v
theories/RunModel.v
theories/RunSpec.v
theories/RunProofs.v
theories/RunProps.v
theories/NDSortModel.v
theories/NDSortProofs.v
theories/NDSortProps.v
theories/VarSpec.v
theories/VarModel.v
theories/VarProofs.v
theories/VarProps.v
theories/SortModel.v
theories/SortProofs.v
theories/NsgaModel.v
theories/NsgaSpec.v
theories/NsgaProofs.v
theories/CrowdProofs.v
theories/NsgaProps.v
theories/JgblModel.v
theories/JgblSpec.v
theories/JgblProofs.v
theories/JgblProps.v
theories/HvSpec.v
theories/HvModel.v
theories/HvMeasure.v
theories/HvLinks.v
theories/HvProofs.v
theories/HvExact.v
theories/HvProps.v
theories/MetSpec.v
theories/MetModel.v
theories/MetProofs.v
theories/MetProps.v
theories/SpeaSpec.v
theories/SpeaModel.v
theories/SpeaProofs.v
theories/SpeaThin.v
theories/SpeaProps.v
theories/IbeaSpec.v
theories/IbeaModel.v
theories/IbeaProofs.v
theories/IbeaProps.v
theories/SmsSpec.v
theories/SmsModel.v
theories/SmsProofs.v
theories/SmsProps.v
theories/NslsSpec.v
theories/NslsModel.v
theories/NslsProofs.v
theories/NslsProps.v
theories/Nsga3Spec.v
theories/Nsga3Model.v
theories/Nsga3Proofs.v
theories/Nsga3Props.v
theories/OmopsoSpec.v
theories/OmopsoModel.v
theories/OmopsoProofs.v
theories/OmopsoCrowd.v
theories/OmopsoProps.v
theories/BogoModel.v
theories/BogoProofs.v
theories/BogoProps.v
theories/ImgaSpec.v
theories/ImgaModel.v
theories/ImgaProofs.v
theories/TorusProofs.v
theories/ImgaRunModel.v
theories/ImgaRunProofs.v
theories/ImgaProps.v
theories/ArchiveModel.v
theories/ArchiveProps.v
theories/TrimModel.v
theories/TrimSpec.v
theories/TrimProofs.v
theories/TrimProps.v
theories/HgsModel.v
theories/HgsSpec.v
theories/HgsProofs.v
theories/HgsTrimProofs.v
theories/HgsReleaseProofs.v
theories/HgsRunProofs.v
theories/HgsFacts.v
theories/HgsNsgaModel.v
theories/HgsTotal.v
theories/HgsProps.v
theories/DhgsModel.v
theories/DhgsSpec.v
theories/DhgsNet.v
theories/DhgsGather.v
theories/DhgsOps.v
theories/DhgsRelease.v
theories/DhgsPhase.v
theories/DhgsLife.v
theories/DhgsFacts.v
theories/DhgsCost.v
theories/DhgsProps.v
theories/PyStr.v
theories/PyStrFacts.v
theories/ConfModel.v
theories/ConfSpec.v
theories/ConfProofs.v
theories/RunConfModel.v
theories/RunConfSpec.v
theories/RunConfProofs.v
theories/ConfProps.v
theories/IdModel.v
theories/IdSpec.v
theories/IdProofs.v
theories/IdProps.v
theories/FsModel.v
theories/FsSpec.v
theories/FsProofs.v
theories/FsHist.v
theories/FsExtract.v
theories/FsRuns.v
theories/FsQuiet.v
theories/FsProps.v
theories/PdiModel.v
theories/PdiProps.v
theories/StatModel.v
theories/StatSpec.v
theories/StatBandSpec.v
theories/StatProofs.v
theories/StatBoot.v
theories/StatRank.v
theories/StatTable.v
theories/StatBand.v
theories/StatProps.v
theories/CellModel.v
theories/CellSpec.v
theories/CellProofs.v
theories/CellProps.v
theories/WorkModel.v
theories/WorkSpec.v
theories/WorkProofs.v
theories/WorkProps.v
theories/ProbModel.v
theories/ProbSpec.v
theories/ProbProofs.v
theories/ProbCurve.v
theories/ProbMore.v
theories/ProbZdt3.v
theories/ProbCover.v
theories/ProbZdt6.v
theories/ProbRotModel.v
theories/ProbRotProofs.v
theories/ProbProps.v
theories/OpModel.v
theories/OpSpec.v
theories/OpProofs.v
theories/OpProofs2.v
theories/OpProps.v
theories/PoolModel.v
theories/PoolSpec.v
theories/PoolProofs.v
theories/PoolProps.v
theories/HgsDriversModel.v
theories/HgsDriversSpec.v
theories/HgsDriversProofs.v
theories/HgsDriversContracts.v
theories/HgsDelegatesProofs.v
theories/HgsDriversProps.v
theories/TrimRunModel.v
theories/TrimRunSpec.v
theories/TrimRunProofs.v
theories/TrimRunProps.v
theories/BlurModel.v
theories/BlurSpec.v
theories/BlurProofs.v
theories/BlurProps.v
theories/HgsPrecisionSpec.v
theories/HgsPrecisionProofs.v
theories/HgsPrecisionProps.v
theories/ImgaDriversModel.v
theories/ImgaDriversSpec.v
theories/ImgaDriversProofs.v
theories/ImgaDriversProps.v
theories/PlotModel.v
theories/PlotSpec.v
theories/PlotProofs.v
theories/PlotSummary.v
theories/PlotFronts.v
theories/PlotProps.v
theories/RndModel.v
theories/RndSpec.v
theories/RndProofs.v
theories/RndIeee.v
theories/RndProps.v
theories/FdomModel.v
theories/FdomSpec.v
theories/FdomProofs.v
theories/FdomProps.v
theories/ConfNest.v
theories/FTimeModel.v
theories/FTimeSpec.v
theories/FTimeProofs.v
theories/FTimeProps.v
theories/DirModel.v
theories/DirSpec.v
theories/DirProofs.v
theories/DirClear.v
theories/DirProps.v
theories/SumModel.v
theories/SumSpec.v
theories/SumProofs.v
theories/SumProps.v
theories/RxModel.v
theories/RxSpec.v
theories/RxProofs.v
theories/RxProps.v
theories/RepModel.v
theories/RepSpec.v
theories/RepProofs.v
theories/RepProps.v
theories/ConcModel.v
theories/ConcSpec.v
theories/ConcProofs.v
theories/ConcEnd.v
theories/ConcProps.v
theories/MconcModel.v
theories/MconcSpec.v
theories/MconcProofs.v
theories/MconcProps.v
theories/ClearModel.v
theories/ClearSpec.v
theories/ClearProofs.v
theories/ClearProps.v
theories/CliModel.v
theories/CliSpec.v
theories/CliProofs.v
theories/CliEnd.v
theories/CliLines.v
theories/CliProps.v
theories/PrefModel.v
theories/PrefSpec.v
theories/PrefProofs.v
theories/PrefProps.v
theories/RdetModel.v
theories/RdetSpec.v
theories/RdetProofs.v
theories/RdetTab.v
theories/RdetProps.v
theories/StrepModel.v
theories/StrepSpec.v
theories/StrepProofs.v
theories/StrepProps.v
theories/WrunModel.v
theories/WrunSpec.v
theories/WrunProofs.v
theories/WrunProps.v
theories/ProbPubSpec.v
theories/ProbPubProofs.v
theories/ProbPubProps.v
theories/SpeaFitSpec.v
theories/SpeaFitProofs.v
theories/SpeaFitProps.v
theories/SimplexSpec.v
theories/SimplexProofs.v
theories/SimplexProps.v
theories/UnifSpec.v
theories/UnifProofs.v
theories/UnifProps.v
theories/ParentSpec.v
theories/ParentProofs.v
theories/ParentProps.v
theories/MoveSpec.v
theories/MoveProofs.v
theories/MoveProps.v
theories/InheritSpec.v
theories/InheritProofs.v
theories/InheritProps.v
theories/ResampleSpec.v
theories/ResampleProofs.v
theories/ResampleProps.v
theories/EmigSpec.v
theories/EmigProps.v
theories/GuideSpec.v
theories/GuideProps.v
theories/SpeedModel.v
theories/SpeedProps.v
theories/CollapseProps.v
theories/JumpSpec.v
theories/JumpProps.v
