-Q theories Verif
theories/AString_Model.v
theories/AString_Proofs.v
theories/AString_Props.v
theories/AString_Spec.v
theories/Abi_Model.v
theories/Abi_Proofs.v
theories/Abi_Props.v
theories/Abi_Spec.v
theories/AccessTotal_Proofs.v
theories/AccessTotal_Spec.v
theories/Access_Model.v
theories/Access_Proofs.v
theories/Access_Props.v
theories/Access_Spec.v
theories/Arena_Model.v
theories/Arena_Proofs.v
theories/Arena_Props.v
theories/Arena_Spec.v
theories/AtomicList_Model.v
theories/AtomicList_Proofs.v
theories/AtomicList_Props.v
theories/AtomicList_Spec.v
theories/Base.v
theories/Bump_Model.v
theories/Bump_Proofs.v
theories/Bump_Props.v
theories/Bump_Spec.v
theories/Codegen_Expr.v
theories/Codegen_Flow.v
theories/Codegen_Func.v
theories/Codegen_Lemmas.v
theories/Codegen_Model.v
theories/Codegen_Props.v
theories/Codegen_Results.v
theories/Codegen_Results2.v
theories/Codegen_Scope.v
theories/Codegen_Shape.v
theories/Codegen_Sim.v
theories/Codegen_Spec.v
theories/Codegen_Stmt.v
theories/ColMem_Model.v
theories/ColMem_Proofs.v
theories/ColMem_Props.v
theories/ColMem_Spec.v
theories/Column_Model.v
theories/Column_Proofs.v
theories/Column_Props.v
theories/Column_Spec.v
theories/Constants_Proofs.v
theories/Context_Model.v
theories/Context_Proofs.v
theories/Context_Props.v
theories/Context_Spec.v
theories/DType_Model.v
theories/DType_Proofs.v
theories/DType_Props.v
theories/DType_Spec.v
theories/DistanceExamples_Proofs.v
theories/DistanceLoop_Proofs.v
theories/DistanceMain_Proofs.v
theories/Distance_Model.v
theories/Distance_Proofs.v
theories/Distance_Props.v
theories/Distance_Spec.v
theories/DynObject_Model.v
theories/DynObject_Proofs.v
theories/DynObject_Props.v
theories/DynObject_Spec.v
theories/Eval_Model.v
theories/Eval_Proofs.v
theories/Eval_Props.v
theories/Eval_Spec.v
theories/FloatExpr_Proofs.v
theories/FloatExpr_Props.v
theories/FloatExpr_Spec.v
theories/Function_Model.v
theories/Ir_Model.v
theories/JsonCmp_Proofs.v
theories/JsonTotal_Proofs.v
theories/JsonTotal_Spec.v
theories/Json_Model.v
theories/Json_Proofs.v
theories/Json_Props.v
theories/Json_Spec.v
theories/LRU_Model.v
theories/LRU_Proofs.v
theories/LRU_Props.v
theories/LRU_Spec.v
theories/Lexer_Model.v
theories/Lexer_Proofs.v
theories/Lexer_Props.v
theories/Lexer_Spec.v
theories/Link_Model.v
theories/Link_Proofs.v
theories/Link_Props.v
theories/Link_Spec.v
theories/Load_Model.v
theories/Load_Proofs.v
theories/Load_Props.v
theories/Load_Spec.v
theories/MathFnFma_Proofs.v
theories/MathFn_Model.v
theories/MathFn_Proofs.v
theories/MathFn_Props.v
theories/MathFn_Spec.v
theories/Members_Model.v
theories/Members_Proofs.v
theories/Members_Props.v
theories/Members_Spec.v
theories/Names_Model.v
theories/Names_Proofs.v
theories/Names_Props.v
theories/Names_Spec.v
theories/Number_Model.v
theories/Number_Proofs.v
theories/Number_Props.v
theories/Number_Spec.v
theories/ObjField_Model.v
theories/ObjField_Proofs.v
theories/ObjField_Props.v
theories/ObjField_Spec.v
theories/ObjTotal_Proofs.v
theories/ObjTotal_Props.v
theories/Op_Lemmas.v
theories/Op_Model.v
theories/Params_Model.v
theories/Params_Proofs.v
theories/Params_Props.v
theories/Params_Spec.v
theories/Parser_Complete.v
theories/Parser_CompleteStmt.v
theories/Parser_Lemmas.v
theories/Parser_Model.v
theories/Parser_Print.v
theories/Parser_Proofs.v
theories/Parser_Props.v
theories/Parser_Sound.v
theories/Parser_SoundStmt.v
theories/Parser_Spec.v
theories/Pb_Model.v
theories/Pb_Proofs.v
theories/Pb_Props.v
theories/Pb_Spec.v
theories/Pool_Model.v
theories/Pool_Proofs.v
theories/Pool_Props.v
theories/Pool_Spec.v
theories/Registry_Model.v
theories/Registry_Proofs.v
theories/Registry_Props.v
theories/Registry_Spec.v
theories/Scalar_Model.v
theories/Scalar_Proofs.v
theories/Scalar_Props.v
theories/Scalar_Spec.v
theories/Session_Model.v
theories/Session_Proofs.v
theories/Session_Props.v
theories/Session_Spec.v
theories/SharedArena_Model.v
theories/SharedArena_Proofs.v
theories/SharedArena_Props.v
theories/SharedArena_Spec.v
theories/SimdString_Model.v
theories/SimdString_Proofs.v
theories/SimdString_Props.v
theories/SimdString_Spec.v
theories/Simd_Model.v
theories/Simd_Proofs.v
theories/Simd_Props.v
theories/Simd_Spec.v
theories/SrcLine_Model.v
theories/SrcLine_Proofs.v
theories/SrcLine_Props.v
theories/SrcLine_Spec.v
theories/Stl_Model.v
theories/Stl_Proofs.v
theories/Stl_Props.v
theories/Stl_Spec.v
theories/StringView_Model.v
theories/StringView_Proofs.v
theories/StringView_Props.v
theories/StringView_Spec.v
theories/TableColumns_Proofs.v
theories/TableDedup_Proofs.v
theories/TableGroup_Proofs.v
theories/TableHistory_Proofs.v
theories/TableReach_Proofs.v
theories/TableRows_Proofs.v
theories/TableSchema_Model.v
theories/TableSchema_Proofs.v
theories/TableSchema_Props.v
theories/TableSchema_Spec.v
theories/TableSet_Proofs.v
theories/TableWrong_Proofs.v
theories/Table_Example.v
theories/Table_Model.v
theories/Table_Proofs.v
theories/Table_Props.v
theories/Table_Spec.v
theories/Text_Compile.v
theories/Text_Proofs.v
theories/Text_Props.v
theories/Text_Same.v
theories/Text_Spec.v
theories/ThreadPool_Model.v
theories/ThreadPool_Proofs.v
theories/ThreadPool_Props.v
theories/ThreadPool_Spec.v
theories/Throw_Model.v
theories/Throw_Proofs.v
theories/Throw_Props.v
theories/Throw_Spec.v
theories/Validate_Codegen.v
theories/Validate_Model.v
theories/Validate_Proofs.v
theories/Validate_Props.v
theories/Validate_Run.v
theories/Validate_Spec.v
theories/VectorEval_Model.v
theories/VectorEval_Proofs.v
theories/VectorEval_Props.v
theories/VectorEval_Spec.v
theories/VectorSort_Model.v
theories/VectorSort_Proofs.v
theories/VectorSort_Props.v
theories/VectorSort_Spec.v
theories/Vector_Model.v
theories/Vector_Proofs.v
theories/Vector_Props.v
theories/Vector_Spec.v
