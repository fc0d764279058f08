-Q theories Verif
theories/Assoc.v
theories/OptionsModel.v
theories/OptionsSpec.v
theories/OptionsProofs.v
theories/OptionsProps.v
theories/KwargsModel.v
theories/KwargsProofs.v
theories/KwargsProps.v
theories/TablesModel.v
theories/TablesSpec.v
theories/TablesProofs.v
theories/TablesProps.v
theories/TransferModel.v
theories/TransferProofs.v
theories/TransferProps.v
theories/PeriodsModel.v
theories/PeriodsProofs.v
theories/PeriodsProps.v
theories/RegistryModel.v
theories/RegistryProofs.v
theories/RegistryProps.v
theories/RenameModel.v
theories/RenameProofs.v
theories/RenameProps.v
theories/EqualsModel.v
theories/EqualsSpec.v
theories/EqualsProofs.v
theories/EqualsProps.v
theories/TopologyModel.v
theories/TopologySpec.v
theories/TopologyProofs.v
theories/TopologyProps.v
theories/CyclesModel.v
theories/CyclesSpec.v
theories/CyclesProofs.v
theories/CyclesProps.v
theories/MCRing.v
theories/LinflowModel.v
theories/LinflowSpec.v
theories/LinflowProofs.v
theories/LinflowProps.v
theories/KvlModel.v
theories/KvlSpec.v
theories/KvlProofs.v
theories/KvlProps.v
theories/ControlModel.v
theories/ControlSpec.v
theories/ControlProofs.v
theories/ControlProps.v
theories/NewtonModel.v
theories/NewtonProofs.v
theories/NewtonProps.v
theories/AdmitModel.v
theories/AdmitSpec.v
theories/AdmitProofs.v
theories/AdmitProps.v
theories/LinModel.v
theories/LinProofs.v
theories/DispatchModel.v
theories/DispatchSpec.v
theories/DispatchProofs.v
theories/DispatchProps.v
theories/CommitModel.v
theories/CommitSpec.v
theories/CommitProofs.v
theories/CommitProps.v
theories/RampModel.v
theories/RampSpec.v
theories/RampProofs.v
theories/RampProps.v
theories/BalanceModel.v
theories/BalanceSpec.v
theories/BalanceProofs.v
theories/BalanceProps.v
theories/StorageModel.v
theories/StorageSpec.v
theories/StorageProofs.v
theories/StorageProps.v
theories/LossModel.v
theories/LossSpec.v
theories/LossProofs.v
theories/LossProps.v
theories/RollingModel.v
theories/RollingSpec.v
theories/RollingProofs.v
theories/RollingProps.v
theories/IterModel.v
theories/IterSpec.v
theories/IterProofs.v
theories/IterProps.v
theories/LimitModel.v
theories/LimitSpec.v
theories/LimitProofs.v
theories/LimitProps.v
theories/ObjectiveModel.v
theories/ObjectiveSpec.v
theories/ObjectiveProofs.v
theories/ObjectiveProps.v
theories/AssignModel.v
theories/AssignSpec.v
theories/AssignProofs.v
theories/AssignProps.v
theories/ClusterModel.v
theories/ClusterSpec.v
theories/ClusterProofs.v
theories/ClusterProps.v
theories/StubsModel.v
theories/StubsSpec.v
theories/StubsProofs.v
theories/StubsProps.v
theories/StatsModel.v
theories/StatsSpec.v
theories/StatsProofs.v
theories/StatsProps.v
theories/OpexModel.v
theories/OpexSpec.v
theories/OpexProofs.v
theories/OpexProps.v
theories/CheckModel.v
theories/CheckSpec.v
theories/CheckProofs.v
theories/CheckProps.v
theories/GeoModel.v
theories/GeoSpec.v
theories/GeoProofs.v
theories/GeoProps.v
theories/CapModel.v
theories/CapSpec.v
theories/CapProofs.v
theories/CapProps.v
theories/JacModel.v
theories/JacSpec.v
theories/JacProofs.v
theories/JacProps.v
theories/PfoutModel.v
theories/PfoutSpec.v
theories/PfoutProofs.v
theories/PfoutProps.v
theories/AnglesModel.v
theories/AnglesProofs.v
theories/AnglesProps.v
theories/DualsModel.v
theories/DualsSpec.v
theories/DualsProofs.v
theories/DualsProps.v
theories/PriceSpec.v
theories/PriceProofs.v
theories/PriceProps.v
theories/SecureModel.v
theories/SecureSpec.v
theories/SecureProofs.v
theories/SecureProps.v
theories/MgaModel.v
theories/MgaSpec.v
theories/MgaProofs.v
theories/MgaProps.v
theories/PerunitModel.v
theories/PerunitSpec.v
theories/PerunitProofs.v
theories/PerunitProps.v
theories/FixModel.v
theories/FixSpec.v
theories/FixProofs.v
theories/FixProps.v
theories/FixkvlProps.v
theories/SetpointModel.v
theories/SetpointSpec.v
theories/SetpointProofs.v
theories/SetpointkvlProofs.v
theories/SetpointProps.v
theories/SetpointkvlProps.v
theories/RunpfModel.v
theories/RunpfSpec.v
theories/RunpfProofs.v
theories/RunpfProps.v
theories/ShedModel.v
theories/ShedSpec.v
theories/ShedProofs.v
theories/ShedProps.v
theories/MarketModel.v
theories/MarketSpec.v
theories/MarketProofs.v
theories/MarketProps.v
theories/CapfacModel.v
theories/CapfacSpec.v
theories/CapfacProofs.v
theories/CapfacProps.v
theories/ExprsModel.v
theories/ExprsSpec.v
theories/ExprsProofs.v
theories/ExprsProps.v
theories/StopriceSpec.v
theories/StopriceProofs.v
theories/StopriceProps.v
theories/PypowerModel.v
theories/PypowerSpec.v
theories/PypowerProofs.v
theories/PypowerProps.v
theories/PandapowerModel.v
theories/PandapowerSpec.v
theories/PandapowerProofs.v
theories/PandapowerProps.v
theories/CoarseModel.v
theories/CoarseSpec.v
theories/CoarseProofs.v
theories/CoarseProps.v
theories/RolluModel.v
theories/RolluSpec.v
theories/RolluProofs.v
theories/RolluProps.v
theories/GroupModel.v
theories/GroupSpec.v
theories/GroupProofs.v
theories/GroupProps.v
theories/WholeModel.v
theories/IdleSpec.v
theories/IdleProofs.v
theories/IdleProps.v
theories/UnitSpec.v
theories/UnitProofs.v
theories/UnitProps.v
theories/WarnModel.v
theories/WarnSpec.v
theories/WarnProofs.v
theories/WarnProps.v
theories/OrderSpec.v
theories/OrderProofs.v
theories/OrderProps.v
theories/StretchSpec.v
theories/StretchProofs.v
theories/StretchParts.v
theories/StretchWhole.v
theories/StretchCases.v
theories/StretchProps.v
theories/IslandSpec.v
theories/IslandProofs.v
theories/IslandCases.v
theories/IslandProps.v
theories/MixSpec.v
theories/MixProofs.v
theories/MixProps.v
theories/LooseSpec.v
theories/LooseProofs.v
theories/LooseCases.v
theories/LooseProps.v
theories/FileModel.v
theories/FileSpec.v
theories/FileProofs.v
theories/FileRead.v
theories/FileRound.v
theories/FileProps.v
theories/NetcdfModel.v
theories/NetcdfSpec.v
theories/NetcdfProofs.v
theories/NetcdfProps.v
theories/SharedModel.v
theories/SharedSpec.v
theories/SharedProofs.v
theories/SharedProps.v
theories/NamingSpec.v
theories/NamingProofs.v
theories/NamingProps.v
theories/TurnSpec.v
theories/TurnProofs.v
theories/KirchhoffModel.v
theories/KirchhoffProofs.v
theories/TurnProps.v
theories/SplitSpec.v
theories/SplitProofs.v
theories/SplitProps.v
theories/TreeModel.v
theories/TreeSpec.v
theories/TreeProofs.v
theories/TreeProps.v
theories/CorridorModel.v
theories/CorridorSpec.v
theories/CorridorProofs.v
theories/CorridorProps.v
theories/DemandSpec.v
theories/DemandProofs.v
theories/DemandProps.v
theories/RiseProofs.v
theories/RiseProps.v
theories/DearSpec.v
theories/DearProofs.v
theories/DearProps.v
