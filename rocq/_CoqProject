-Q theories Verif
theories/Base/Outcome.v
theories/Base/RSum.v
theories/Base/Vec.v
theories/Cabinet/Model.v
theories/Cabinet/Spec.v
theories/Cabinet/Proofs.v
theories/Cabinet/Props.v
theories/Stoich/Model.v
theories/Stoich/Spec.v
theories/Stoich/Proofs.v
theories/Stoich/Props.v
theories/Kinetics/Model.v
theories/Kinetics/Spec.v
theories/Kinetics/Proofs.v
theories/Kinetics/Proofs2.v
theories/Kinetics/Props.v
theories/Kinetics/DupModel.v
theories/Kinetics/DupSpec.v
theories/Kinetics/DupProofs.v
theories/Kinetics/DupProofs2.v
theories/Kinetics/DupProofs3.v
theories/Kinetics/DupProofs4.v
theories/Kinetics/DupProps.v
theories/Kinetics/DupCases.v
theories/Base/Fp.v
theories/Base/Map2.v
theories/Phase/CompModel.v
theories/Phase/CompSpec.v
theories/Phase/CompProofs.v
theories/Phase/CompProofs2.v
theories/Phase/CompProps.v
theories/Phase/Model.v
theories/Phase/Spec.v
theories/Phase/Proofs.v
theories/Phase/Props.v
theories/Strings/Model.v
theories/Strings/Spec.v
theories/Strings/Proofs.v
theories/Strings/CompProofs.v
theories/Strings/Props.v
theories/Units/Model.v
theories/Units/Spec.v
theories/Units/Proofs.v
theories/Units/SysProofs.v
theories/Units/Props.v
theories/Func1/Model.v
theories/Func1/Spec.v
theories/Func1/Algebra.v
theories/Func1/Proofs.v
theories/Func1/Props.v
theories/Rates/Model.v
theories/Rates/Spec.v
theories/Rates/PlogProofs.v
theories/Rates/PlogProofs2.v
theories/Rates/ChebProofs.v
theories/Rates/FalloffProofs.v
theories/Rates/FalloffProofs2.v
theories/Rates/DataProofs.v
theories/Rates/Props.v
theories/Numerics/Model.v
theories/Numerics/Spec.v
theories/Numerics/FuncsProofs.v
theories/Numerics/MatProofs.v
theories/Numerics/Props.v
theories/Extend/Model.v
theories/Extend/Spec.v
theories/Extend/Proofs.v
theories/Extend/Props.v
theories/ZeroD/NetModel.v
theories/ZeroD/NetSpec.v
theories/ZeroD/FrameProofs.v
theories/ZeroD/EvalProofs.v
theories/ZeroD/BalanceProofs.v
theories/ZeroD/EnergyProofs.v
theories/ZeroD/DevProofs.v
theories/ZeroD/HistoryProofs.v
theories/ZeroD/Props.v
theories/ZeroD/IndexModel.v
theories/ZeroD/IndexSpec.v
theories/ZeroD/IndexProofs.v
theories/ZeroD/IndexProps.v
theories/ZeroD/SensModel.v
theories/ZeroD/SensSpec.v
theories/ZeroD/SensProofs.v
theories/ZeroD/SensProps.v
theories/ZeroD/StateModel.v
theories/ZeroD/StateSpec.v
theories/ZeroD/StateProofs.v
theories/ZeroD/StateProps.v
theories/ZeroD/AdvModel.v
theories/ZeroD/AdvSpec.v
theories/ZeroD/AdvProofs.v
theories/ZeroD/AdvProps.v
theories/OneD/LayoutModel.v
theories/OneD/LayoutSpec.v
theories/OneD/LayoutProofs.v
theories/OneD/LayoutProps.v
theories/OneD/NewtonModel.v
theories/OneD/NewtonSpec.v
theories/OneD/NewtonProofs.v
theories/OneD/NewtonProps.v
theories/OneD/RefineModel.v
theories/OneD/RefineSpec.v
theories/OneD/RefineProofs.v
theories/OneD/RefineProps.v
theories/OneD/FixedProps.v
theories/SpThermo/Model.v
theories/SpThermo/Spec.v
theories/SpThermo/Proofs.v
theories/SpThermo/MuProofs.v
theories/SpThermo/TripProofs.v
theories/SpThermo/MgrProofs.v
theories/SpThermo/Props.v
theories/Cache/Model.v
theories/Cache/Spec.v
theories/Cache/Proofs.v
theories/Cache/BulkProofs.v
theories/Cache/Props.v
theories/IdealGas/Model.v
theories/IdealGas/Spec.v
theories/IdealGas/Proofs.v
theories/IdealGas/DerivProofs.v
theories/IdealGas/AmountProofs.v
theories/IdealGas/Props.v
theories/Surf/Model.v
theories/Surf/Spec.v
theories/Surf/Proofs.v
theories/Surf/ThermoProofs.v
theories/Surf/Props.v
theories/Equil/MixModel.v
theories/Equil/MixSpec.v
theories/Equil/MixProofs.v
theories/Equil/ReadProofs.v
theories/Equil/SetProofs.v
theories/Equil/ReactModel.v
theories/Equil/ReactSpec.v
theories/Equil/ReactProofs.v
theories/Equil/StepProofs.v
theories/Equil/SolveSpec.v
theories/Equil/SolveModel.v
theories/Equil/SolveProofs.v
theories/Equil/Props.v
theories/Equil/Cases.v
theories/Mixture/Model.v
theories/Mixture/Spec.v
theories/Mixture/Proofs.v
theories/Mixture/Proofs2.v
theories/Mixture/Proofs3.v
theories/Mixture/Props.v
theories/StateSolve/Model.v
theories/StateSolve/Spec.v
theories/StateSolve/Proofs.v
theories/StateSolve/Proofs2.v
theories/StateSolve/Props.v
theories/Transport/Model.v
theories/Transport/Spec.v
theories/Transport/Proofs.v
theories/Transport/Proofs2.v
theories/Transport/Props.v
theories/Excess/Model.v
theories/Excess/Spec.v
theories/Excess/Proofs.v
theories/Excess/Proofs2.v
theories/Excess/Props.v
theories/Cubic/Model.v
theories/Cubic/Spec.v
theories/Cubic/Proofs.v
theories/Cubic/Mix.v
theories/Cubic/Paths.v
theories/Cubic/PRProofs.v
theories/Cubic/RKProofs.v
theories/Cubic/Props.v
theories/RootSolve/Model.v
theories/RootSolve/Spec.v
theories/RootSolve/Proofs.v
theories/RootSolve/Props.v
theories/RootSolve/Props2.v
theories/Interface/Model.v
theories/Interface/Spec.v
theories/Interface/Props.v
theories/Interface/Props2.v
theories/Interface/Props3.v
theories/SetState/Model.v
theories/SetState/Spec.v
theories/SetState/Props.v
theories/SetState/Props2.v
theories/Plasma/Model.v
theories/Plasma/Spec.v
theories/Plasma/Props.v
theories/Plasma/Props2.v
theories/Plasma/Props3.v
theories/Plasma/Thermo.v
theories/Plasma/ThermoProps.v
