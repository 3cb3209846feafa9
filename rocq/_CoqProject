-Q theories Verif
theories/Common.v
theories/Vec_Model.v
theories/Vec_Spec.v
theories/Vec_Sys.v
theories/Vec_Proofs.v
theories/Vec_Props.v
theories/Queue_Model.v
theories/Queue_Spec.v
theories/Queue_Sys.v
theories/Queue_Proofs.v
theories/Queue_Props.v
theories/Stack_Model.v
theories/Stack_Proofs.v
theories/Stack_Props.v
theories/Hash_Model.v
theories/Hash_Proofs.v
theories/Map_Model.v
theories/Map_Spec.v
theories/Map_Sys.v
theories/Map_Proofs.v
theories/Map_Props.v
theories/Set_Model.v
theories/Set_Spec.v
theories/Set_Sys.v
theories/Set_Proofs.v
theories/Set_Props.v
theories/String_Model.v
theories/String_Spec.v
theories/String_Sys.v
theories/String_Proofs.v
theories/String_Props.v
theories/Bits.v
theories/Base64_Model.v
theories/Base64_Spec.v
theories/Base64_Proofs.v
theories/Base64_Props.v
theories/Sha1_Model.v
theories/Sha1_Spec.v
theories/Sha1_Proofs.v
theories/Sha1_Props.v
theories/WebSocket_Model.v
theories/WebSocket_Spec.v
theories/WebSocket_Proofs.v
theories/WebSocket_Props.v
theories/Json_Model.v
theories/Json_Spec.v
theories/Json_Proofs.v
theories/Json_Props.v
theories/Path_Model.v
theories/Path_Spec.v
theories/Path_Proofs.v
theories/Path_Props.v
theories/Url_Model.v
theories/Url_Spec.v
theories/Url_Proofs.v
theories/Url_Props.v
theories/Arena_Model.v
theories/Arena_Spec.v
theories/Arena_Proofs.v
theories/Arena_Props.v
theories/Readln_Model.v
theories/Readln_Props.v
theories/ConstFold_Model.v
theories/ConstFold_Spec.v
theories/ConstFold_Props.v
theories/Lexer_Model.v
theories/Lexer_Spec.v
theories/Lexer_Proofs.v
theories/Lexer_Munch.v
theories/Lexer_Next.v
theories/Lexer_Props.v
theories/IntLit_Model.v
theories/IntLit_Spec.v
theories/IntLit_Proofs.v
theories/IntLit_Props.v
theories/Pratt_Model.v
theories/Pratt_Spec.v
theories/Pratt_Proofs.v
theories/Pratt_Complete.v
theories/Pratt_Props.v
theories/Lev_Model.v
theories/Lev_Spec.v
theories/Lev_Proofs.v
theories/Lev_Props.v
theories/Scope_Model.v
theories/Scope_Spec.v
theories/Scope_Props.v
theories/Topo_Model.v
theories/Topo_Spec.v
theories/Topo_Proofs.v
theories/Topo_Props.v
theories/Drop_Model.v
theories/Drop_Spec.v
theories/Drop_Proofs.v
theories/Drop_Props.v
theories/LspIndex_Model.v
theories/LspIndex_Spec.v
theories/LspIndex_Proofs.v
theories/LspIndex_Props.v
theories/LspIO_Model.v
theories/LspIO_Spec.v
theories/LspIO_Proofs.v
theories/LspIO_Props.v
theories/Mangle_Model.v
theories/Mangle_Spec.v
theories/Mangle_Proofs.v
theories/Mangle_Props.v
theories/Types_Model.v
theories/Types_Spec.v
theories/Types_Props.v
theories/Subst_Model.v
theories/Subst_Spec.v
theories/Subst_Proofs.v
theories/Subst_Props.v
theories/StrLit_Model.v
theories/StrLit_Spec.v
theories/StrLit_Proofs.v
theories/StrLit_Props.v
theories/FStr_Model.v
theories/FStr_Spec.v
theories/FStr_Proofs.v
theories/FStr_Props.v
theories/FloatLit_Model.v
theories/FloatLit_Spec.v
theories/FloatLit_Proofs.v
theories/FloatLit_Props.v
theories/Flags_Model.v
theories/Flags_Spec.v
theories/Flags_Proofs.v
theories/Flags_Props.v
theories/Alloc_Model.v
theories/Alloc_Spec.v
theories/Alloc_Proofs.v
theories/Alloc_Props.v
theories/Defer_Model.v
theories/Defer_Spec.v
theories/Defer_Proofs.v
theories/Defer_Props.v
theories/Ret_Model.v
theories/Ret_Spec.v
theories/Ret_Proofs.v
theories/Ret_Props.v
theories/Move_Model.v
theories/Move_Spec.v
theories/Move_Proofs.v
theories/Move_Props.v
theories/Http_Model.v
theories/Http_Spec.v
theories/Http_Proofs.v
theories/Http_Props.v
theories/Process_Model.v
theories/Process_Spec.v
theories/Process_Proofs.v
theories/Process_Props.v
theories/Regex_Model.v
theories/Regex_Spec.v
theories/Regex_Proofs.v
theories/Regex_Props.v
theories/Fs_Model.v
theories/Fs_Spec.v
theories/Fs_Sys.v
theories/Fs_Proofs.v
theories/Fs_Props.v
theories/Raii_Model.v
theories/Raii_Spec.v
theories/Raii_Proofs.v
theories/Raii_Props.v
theories/Match_Model.v
theories/Match_Spec.v
theories/Match_Proofs.v
theories/Match_Props.v
theories/Range_Model.v
theories/Range_Spec.v
theories/Range_Proofs.v
theories/Range_Props.v
theories/Embed_Model.v
theories/Embed_Spec.v
theories/Embed_Proofs.v
theories/Embed_Props.v
theories/Cfg_Model.v
theories/Cfg_Spec.v
theories/Cfg_Proofs.v
theories/Cfg_Props.v
theories/Print_Model.v
theories/Print_Spec.v
theories/Print_Proofs.v
theories/Print_Props.v
theories/Closure_Model.v
theories/Closure_Spec.v
theories/Closure_Proofs.v
theories/Closure_Props.v
theories/Thread_Model.v
theories/Thread_Spec.v
theories/Thread_Proofs.v
theories/Thread_Props.v
theories/Async_Model.v
theories/Async_Spec.v
theories/Async_Proofs.v
theories/Async_Props.v
theories/Args_Model.v
theories/Args_Spec.v
theories/Args_Proofs.v
theories/Args_Props.v
theories/Option_Model.v
theories/Option_Spec.v
theories/Option_Proofs.v
theories/Option_Props.v
theories/ForIn_Model.v
theories/ForIn_Spec.v
theories/ForIn_Proofs.v
theories/ForIn_Props.v
theories/Ops_Model.v
theories/Ops_Spec.v
theories/Ops_Proofs.v
theories/Ops_Props.v
theories/Try_Model.v
theories/Try_Spec.v
theories/Try_Proofs.v
theories/Try_Props.v
theories/Derive_Model.v
theories/Derive_Spec.v
theories/Derive_Proofs.v
theories/Derive_Props.v
theories/Djson_Model.v
theories/Djson_Spec.v
theories/Djson_Proofs.v
theories/Djson_Props.v
theories/Trait_Model.v
theories/Trait_Spec.v
theories/Trait_Proofs.v
theories/Trait_Props.v
theories/Oper_Model.v
theories/Oper_Spec.v
theories/Oper_Proofs.v
theories/Oper_Props.v
theories/Import_Model.v
theories/Import_Spec.v
theories/Import_Proofs.v
theories/Import_Props.v
theories/Index_Model.v
theories/Index_Spec.v
theories/Index_Proofs.v
theories/Index_Props.v
theories/Net_Model.v
theories/Net_Spec.v
theories/Net_Proofs.v
theories/Net_Props.v
theories/IfExpr_Model.v
theories/IfExpr_Spec.v
theories/IfExpr_Proofs.v
theories/IfExpr_Props.v
theories/Check_Model.v
theories/Check_Spec.v
theories/Check_Proofs.v
theories/Check_Props.v
theories/Inst_Model.v
theories/Inst_Spec.v
theories/Inst_Proofs.v
theories/Inst_Props.v
theories/Io_Model.v
theories/Io_Spec.v
theories/Io_Proofs.v
theories/Io_Props.v
theories/Env_Model.v
theories/Env_Spec.v
theories/Env_Proofs.v
theories/Env_Props.v
theories/Slice_Model.v
theories/Slice_Spec.v
theories/Slice_Proofs.v
theories/Slice_Props.v
theories/Tuple_Model.v
theories/Tuple_Spec.v
theories/Tuple_Proofs.v
theories/Tuple_Props.v
theories/Driver_Model.v
theories/Driver_Spec.v
theories/Driver_Proofs.v
theories/Driver_Props.v
theories/Semtok_Model.v
theories/Semtok_Spec.v
theories/Semtok_Proofs.v
theories/Semtok_Props.v
theories/Rename_Model.v
theories/Rename_Spec.v
theories/Rename_Proofs.v
theories/Rename_Props.v
theories/Rpc_Model.v
theories/Rpc_Spec.v
theories/Rpc_Proofs.v
theories/Rpc_Props.v
theories/Testing_Model.v
theories/Testing_Spec.v
theories/Testing_Proofs.v
theories/Testing_Props.v
theories/Cjson_Model.v
theories/Cjson_Spec.v
theories/Cjson_Proofs.v
theories/Cjson_Props.v
theories/Edit_Model.v
theories/Edit_Spec.v
theories/Edit_Proofs.v
theories/Edit_Props.v
theories/Repl_Model.v
theories/Repl_Spec.v
theories/Repl_Proofs.v
theories/Repl_Props.v
theories/Cmdline_Model.v
theories/Cmdline_Spec.v
theories/Cmdline_Proofs.v
theories/Cmdline_Props.v
theories/Macro_Model.v
theories/Macro_Spec.v
theories/Macro_Proofs.v
theories/Macro_Props.v
theories/Bf_Model.v
theories/Bf_Spec.v
theories/Bf_Proofs.v
theories/Bf_Props.v
theories/Rx_Model.v
theories/Rx_Spec.v
theories/Rx_Proofs.v
theories/Rx_Props.v
theories/Mixin_Model.v
theories/Mixin_Spec.v
theories/Mixin_Props.v
theories/Comptime_Model.v
theories/Comptime_Spec.v
theories/Comptime_Proofs.v
theories/Comptime_Props.v
theories/Ctype_Model.v
theories/Ctype_Spec.v
theories/Ctype_Proofs.v
theories/Ctype_Props.v
theories/Destruct_Model.v
theories/Destruct_Spec.v
theories/Destruct_Props.v
theories/Cut_Model.v
theories/Cut_Spec.v
theories/Cut_Proofs.v
theories/Cut_Props.v
theories/Enum_Model.v
theories/Enum_Spec.v
theories/Enum_Proofs.v
theories/Enum_Props.v
theories/Vars_Model.v
theories/Vars_Props.v
theories/Vars_Spec.v
theories/Vars_Proofs.v
theories/Asm_Model.v
theories/Asm_Spec.v
theories/Asm_Proofs.v
theories/Asm_Props.v
theories/Opaque_Model.v
theories/Opaque_Spec.v
theories/Opaque_Props.v
theories/Befunge_Model.v
theories/Befunge_Spec.v
theories/Befunge_Proofs.v
theories/Befunge_Props.v
theories/Scan_Model.v
theories/Scan_Spec.v
theories/Scan_Proofs.v
theories/Scan_Props.v
theories/Loops_Model.v
theories/Loops_Spec.v
theories/Loops_Proofs.v
theories/Loops_Props.v
theories/Lisp_Model.v
theories/Lisp_Spec.v
theories/Lisp_Proofs.v
theories/Lisp_Props.v
theories/Forth_Model.v
theories/Forth_Spec.v
theories/Forth_Proofs.v
theories/Forth_Props.v
theories/Sql_Model.v
theories/Sql_Spec.v
theories/Sql_Proofs.v
theories/Sql_Props.v
theories/Diag_Model.v
theories/Diag_Spec.v
theories/Diag_Proofs.v
theories/Diag_Props.v
theories/Zen_Model.v
theories/Zen_Spec.v
theories/Zen_Proofs.v
theories/Zen_Props.v
theories/Col_Model.v
theories/Col_Spec.v
theories/Col_Proofs.v
theories/Col_Props.v
theories/Cfgf_Model.v
theories/Cfgf_Spec.v
theories/Cfgf_Proofs.v
theories/Cfgf_Props.v
theories/Compl_Model.v
theories/Compl_Spec.v
theories/Compl_Proofs.v
theories/Compl_Props.v
theories/Help_Model.v
theories/Help_Spec.v
theories/Help_Proofs.v
theories/Help_Props.v
