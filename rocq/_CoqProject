-Q theories Verif

theories/PyBase.v
theories/NamesModel.v
theories/NamesProofs.v
theories/PromotionsModel.v
theories/PromotionsSpec.v
theories/PromotionsProofs.v
theories/PromotionsProofs2.v
theories/PromotionsProofs3.v
theories/PromotionsExample.v
theories/NamesProps.v
theories/RoundSpec.v
theories/RoundProofs.v
theories/Prop_Names.v
theories/Prop_Promotions.v
theories/IndexModel.v
theories/IndexSpec.v
theories/IndexProofs.v
theories/Prop_Index.v
theories/ApiModel.v
theories/ApiSpec.v
theories/ApiProofs.v
theories/Prop_Api.v
theories/HierModel.v
theories/HierSpec.v
theories/HierProofs.v
theories/Prop_Hier.v
theories/Digraph.v
theories/TopoModel.v
theories/TopoSpec.v
theories/TopoProofs.v
theories/FlatModel.v
theories/FlatSpec.v
theories/FlatProofs.v
theories/ConnProofs.v
theories/Prop_Graph.v
theories/ExprModel.v
theories/ExprSpec.v
theories/UnflatModel.v
theories/UnflatSpec.v
theories/UnflatProofs.v
theories/UnflatProofs2.v
theories/ExprProofs.v
theories/ExprProofs2.v
theories/ExprProofs3.v
theories/Prop_Unflat.v
theories/FlattenModel.v
theories/FlattenSpec.v
theories/FlattenProofs.v
theories/FlattenProofs2.v
theories/FlattenProofs3.v
theories/FlattenProofs4.v
theories/Prop_Flatten.v
theories/ArithModel.v
theories/ArithSpec.v
theories/ArithProofs.v
theories/ComputeModel.v
theories/ComputeSpec.v
theories/ComputeProofs.v
theories/ComputeProofs2.v
theories/Rationals.v
theories/Prop_Arith.v
theories/ImplicitModel.v
theories/ImplicitSpec.v
theories/ImplicitProofs.v
theories/ImplicitProofs2.v
theories/Prop_Implicit.v
theories/ParamModel.v
theories/ParamSpec.v
theories/ParamProofs.v
theories/Prop_Param.v
theories/CustomModel.v
theories/CustomSpec.v
theories/CustomProofs.v
theories/CustomProofs2.v
theories/Prop_Custom.v
theories/EinsumModel.v
theories/EinsumSpec.v
theories/EinsumProofs.v
theories/Prop_Einsum.v
theories/ShapeModel.v
theories/ShapeSpec.v
theories/ShapeProofs.v
theories/Prop_Shape.v
theories/DiffModel.v
theories/Prop_Diff.v
theories/DefineModel.v
theories/DefineSpec.v
theories/DefineProofs.v
theories/Prop_Define.v
theories/CombineModel.v
theories/CombineSpec.v
theories/CombineProofs.v
theories/Prop_Combine.v
theories/ApiSpec2.v
theories/ApiProofs2.v
theories/Prop_Api2.v
theories/IndexSpec2.v
theories/IndexProofs2.v
theories/HierProofs2.v
theories/ConnProofs2.v
theories/QueryModel.v
theories/QuerySpec.v
theories/QueryProofs.v
theories/QueryProofs2.v
theories/Prop_Query.v
theories/EffectSpec.v
theories/EffectProofs.v
theories/Prop_Expr.v
theories/FactoryModel.v
theories/FactorySpec.v
theories/FactoryProofs.v
theories/Prop_Factory.v
theories/SimModel.v
theories/Prop_Sim.v
theories/RealNumbers.v
theories/FunModel.v
theories/FunProofs.v
theories/Prop_Fun.v
theories/RotModel.v
theories/RotProofs.v
theories/Prop_Rot.v
theories/SplineModel.v
theories/SplineSpec.v
theories/SplineProofs.v
theories/Prop_Spline.v
theories/SolverModel.v
theories/SolverSpec.v
theories/Prop_Solver.v
theories/CompileModel.v
theories/CompileSpec.v
theories/ExecProofs.v
theories/CompileProofs.v
theories/CompileProofs2.v
theories/Prop_Compile.v
theories/AcceptSpec.v
theories/AcceptProofs.v
theories/AcceptProofs2.v
theories/AcceptProofs3.v
theories/AcceptProofs4.v
theories/Prop_Accept.v
theories/WorldModel.v
theories/WorldSpec.v
theories/WorldProofs.v
theories/WorldProofs2.v
theories/WorldProofs3.v
theories/WorldProofs4.v
theories/WorldProofs5.v
theories/WorldProofs6.v
theories/Prop_World.v
theories/WorldSpec2.v
theories/WorldProofs7.v
theories/WorldProofs8.v
theories/Prop_World2.v
theories/Conformance.v
theories/Conformance2.v
theories/RebuildSpec.v
theories/RebuildProofs.v
theories/Prop_Rebuild.v
theories/ScriptModel.v
theories/ScriptSpec.v
theories/ScriptProofs.v
theories/ScriptProofs2.v
theories/ScriptProofs3.v
theories/ScriptProofs4.v
theories/ScriptProofs5.v
theories/Prop_Script.v
theories/ScriptSpec2.v
theories/ScriptProofs6.v
theories/ScriptProofs7.v
theories/ScriptProofs8.v
theories/Prop_Script2.v
theories/ScriptProofs9.v
theories/Prop_Script3.v
theories/ParamProofs2.v
theories/Prop_Param2.v
theories/DerivModel.v
theories/Prop_Deriv.v
theories/ApiSpec3.v
theories/ApiProofs3.v
theories/Prop_Api3.v
theories/BlockModel.v
theories/BlockSpec.v
theories/BlockProofs.v
theories/Prop_Block.v
theories/Conformance3.v
theories/Conformance4.v
theories/ImplicitSpec2.v
theories/ImplicitValues.v
theories/Prop_Implicit2.v
theories/IterModel.v
theories/IterProofs.v
theories/CompileProofs3.v
theories/IterSpec.v
theories/Prop_Iter.v
theories/Prop_Iter2.v
theories/MethodModel.v
theories/Prop_Method.v
theories/ErrProofs.v
theories/Prop_Err.v
theories/RepModel.v
theories/RepProofs.v
theories/Prop_Rep.v
theories/LookupModel.v
theories/LookupProofs.v
theories/Prop_Lookup.v
theories/DependSpec.v
theories/DependProofs.v
theories/ViewModel.v
theories/ViewProofs.v
theories/Prop_Depend.v
theories/SubProofs.v
theories/Prop_Sub.v
theories/ExtendSpec.v
theories/ExtendProofs.v
theories/ExtendProofs2.v
theories/WorldCheck.v
theories/Prop_Extend.v
theories/ReorderSpec.v
theories/ReorderProofs.v
theories/ReorderProofs2.v
theories/ReorderProofs3.v
theories/ReorderProofs4.v
theories/ReorderProofs5.v
theories/ReorderProofs6.v
theories/Prop_Reorder.v
theories/OptionSpec.v
theories/OptionProofs.v
theories/OptionProofs2.v
theories/Prop_Option.v
theories/ShareProofs.v
theories/Prop_Share.v
theories/LinkSpec.v
theories/LinkProofs.v
theories/LinkProofs2.v
theories/LinkCheck.v
theories/Prop_Link.v
theories/RenameSpec.v
theories/RenameProofs.v
theories/RenameProofs2.v
theories/RenameProofs3.v
theories/RenameCheck.v
theories/Prop_Rename.v
theories/Prop_Implicit3.v
theories/RefactorSpec.v
theories/RefactorProofs.v
theories/RefactorCheck.v
theories/Prop_Refactor.v
theories/ConsistentSpec.v
theories/ConsistentProofs.v
theories/ConsistentProofs2.v
theories/ConsistentProofs3.v
theories/Prop_Consistent.v
theories/ConsistentSpec2.v
theories/ConsistentProofs4.v
theories/Prop_Consistent2.v
