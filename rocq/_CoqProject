-Q theories Verif
theories/Base.v
theories/BCModel.v
theories/BCSpec.v
theories/BCProofs.v
theories/BCProps.v
theories/PileModel.v
theories/PileSpec.v
theories/PileProofs.v
theories/PileProps.v
theories/MeshModel.v
theories/MeshSpec.v
theories/MeshProofs.v
theories/MeshProps.v
theories/StressModel.v
theories/StressSpec.v
theories/StressProofs.v
theories/WeightProofs.v
theories/GridProofs.v
theories/ShaftProofs.v
theories/StressProps.v
theories/LinAlg.v
theories/BeamModel.v
theories/BeamSpec.v
theories/BeamProofs.v
theories/BeamProps.v
theories/SolveModel.v
theories/SolveSpec.v
theories/SolveProofs.v
theories/ForceProofs.v
theories/SolveProps.v
theories/SpringModel.v
theories/SpringSpec.v
theories/SpringProofs.v
theories/SoilProofs.v
theories/SpringWitness.v
theories/SpringProps.v
theories/SpringProper.v
theories/WinklerModel.v
theories/WinklerSpec.v
theories/WinklerProofs.v
theories/WinklerWitness.v
theories/WinklerProps.v
theories/GetterModel.v
theories/GetterProofs.v
theories/GetterProps.v
theories/CreateModel.v
theories/CreateProofs.v
theories/CreateProps.v
theories/ConicModel.v
theories/ConicSpec.v
theories/ConicProofs.v
theories/ConicProps.v
theories/PisaModel.v
theories/PisaSpec.v
theories/PisaProofs.v
theories/PisaProps.v
theories/ApiSandModel.v
theories/ApiSandSpec.v
theories/ApiSandProofs.v
theories/ApiSandProps.v
theories/ApiClayModel.v
theories/ApiClaySpec.v
theories/ApiClayProofs.v
theories/ApiClayProps.v
theories/ReeseModel.v
theories/ReeseSpec.v
theories/ReeseProofs.v
theories/ReeseProps.v
theories/AxialModel.v
theories/AxialSpec.v
theories/AxialProofs.v
theories/KraftProofs.v
theories/AxialProps.v
theories/LateralModel.v
theories/LateralSpec.v
theories/LateralProofs.v
theories/MomentProofs.v
theories/LateralProps.v
theories/RefineSpec.v
theories/CantileverProofs.v
theories/RefineProofs.v
theories/RefineProps.v
theories/BalanceSpec.v
theories/BalanceProofs.v
theories/BalanceProps.v
theories/WholeModel.v
theories/WholeSpec.v
theories/WholeProofs.v
theories/WholeProps.v
theories/ResultModel.v
theories/ResultSpec.v
theories/ResultProofs.v
theories/ResultProps.v
theories/FieldModel.v
theories/FieldSpec.v
theories/FieldProofs.v
theories/FieldProps.v
theories/SessionModel.v
theories/SessionSpec.v
theories/SessionProofs.v
theories/SessionWitness.v
theories/SessionProps.v
theories/AccessModel.v
theories/AccessSpec.v
theories/AccessProofs.v
theories/AccessProps.v
theories/CapacityModel.v
theories/CapacitySpec.v
theories/CapacityProofs.v
theories/CapacityProps.v
theories/StartProofs.v
theories/ResistProofs.v
theories/FullModel.v
theories/FullSpec.v
theories/FullProofs.v
theories/CallProofs.v
theories/SiteProofs.v
theories/AnalysisProofs.v
theories/FullProps.v
theories/LiveModel.v
theories/LiveSpec.v
theories/LiveProofs.v
theories/ReportProofs.v
theories/LiveWitness.v
theories/LiveProps.v
theories/DrawModel.v
theories/DrawSpec.v
theories/DrawProofs.v
theories/DrawProps.v
theories/BareModel.v
theories/BareSpec.v
theories/BareProofs.v
theories/BareProps.v
theories/GeomModel.v
theories/GeomProps.v
theories/EquilSpec.v
theories/EquilProofs.v
theories/EquilWitness.v
theories/EquilProps.v
theories/TwinProofs.v
theories/UnitSpec.v
theories/UnitProofs.v
theories/UnitWitness.v
theories/UnitProps.v
theories/StiffSpec.v
theories/StiffProofs.v
theories/StiffProps.v
theories/DimSpec.v
theories/DimProofs.v
theories/ScaleProofs.v
theories/DimProps.v
theories/DimSandProps.v
theories/EditModel.v
theories/EditSpec.v
theories/EditProofs.v
theories/EditProps.v
theories/SplitSpec.v
theories/SplitProofs.v
theories/LayerProofs.v
theories/SplitProps.v
theories/RandomSpec.v
theories/RandomProofs.v
theories/PlateauProofs.v
theories/ChanceProofs.v
theories/MatlockProofs.v
theories/RandomProps.v
theories/RecipSpec.v
theories/RecipProofs.v
theories/RecipProps.v
theories/FirmSpec.v
theories/FirmProofs.v
theories/FirmLateralProofs.v
theories/FirmAxialProofs.v
theories/FirmProps.v
theories/ElasticSpec.v
theories/ElasticProofs.v
theories/ElasticWitness.v
theories/ElasticProps.v
theories/DatumSpec.v
theories/DatumProofs.v
theories/RangeProofs.v
theories/LevelProofs.v
theories/DatumProps.v
theories/ColorModel.v
theories/ColorProps.v
theories/NewtonSpec.v
theories/NewtonProofs.v
theories/NewtonProps.v
theories/InterpSpec.v
theories/InterpModel.v
theories/InterpProofs.v
theories/InterpFullModel.v
theories/InterpSiteProofs.v
theories/InterpProps.v
theories/TightProps.v
theories/WorkSpec.v
theories/WorkProofs.v
theories/WorkWitness.v
theories/WorkProps.v
theories/SoftenSpec.v
theories/SoftenProofs.v
theories/SoftenProps.v
theories/LateModel.v
theories/LateSpec.v
theories/LateProofs.v
theories/LateProps.v
theories/FewSpec.v
theories/FewProofs.v
theories/FewProps.v
theories/AreaSpec.v
theories/AreaProofs.v
theories/AreaProps.v
theories/OrderSpec.v
theories/OrderProofs.v
theories/OrderProps.v
theories/ObjectModel.v
theories/ObjectProofs.v
theories/ObjectProps.v
theories/ApartSpec.v
theories/ApartProofs.v
theories/ApartCalls.v
theories/ApartTables.v
theories/ApartWitness.v
theories/ApartProps.v
theories/LimitProps.v
theories/FinerProps.v
theories/StillProofs.v
theories/StillTables.v
theories/StillProps.v
theories/ElemProps.v
theories/SteadyProofs.v
theories/EvenProofs.v
theories/GentleProofs.v
theories/GentleCalls.v
theories/GentleProps.v
theories/RaiseSpec.v
theories/RaiseProofs.v
theories/RaiseProps.v
theories/KeenProps.v
theories/OffModel.v
theories/OffProps.v
theories/SwitchSpec.v
theories/SwitchProofs.v
theories/SwitchProps.v
theories/FirmBaseProofs.v
theories/FirmBaseProps.v
theories/SturdySpec.v
theories/SturdyProofs.v
theories/SturdyWitness.v
theories/SturdyProps.v
theories/SturdyBaseProps.v
theories/FirmRockProps.v
theories/SoftenRowProps.v
theories/FirmRowProps.v
theories/NearSpec.v
theories/NearProofs.v
theories/NearWitness.v
theories/NearProps.v
theories/StoreSpec.v
theories/StoreProofs.v
theories/StoreProps.v
theories/SharpProps.v
theories/ConeSpec.v
theories/ConeProofs.v
theories/ConeProps.v
theories/ConeSiteProps.v
