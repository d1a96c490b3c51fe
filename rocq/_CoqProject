-Q theories Verif

theories/Common.v
theories/Naming_Model.v
theories/Naming_Spec.v
theories/Naming_Proofs.v
theories/Naming_Thms.v
theories/Scope_Model.v
theories/Scope_Spec.v
theories/Scope_Proofs.v
theories/Scope_Thms.v
theories/Tuple_Model.v
theories/Tuple_Spec.v
theories/Tuple_Proofs.v
theories/Tuple_Thms.v
theories/RtInt_Model.v
theories/RtInt_Spec.v
theories/RtInt_Proofs.v
theories/RtInt_Thms.v
theories/RtArr_Model.v
theories/RtArr_Spec.v
theories/RtArr_Proofs.v
theories/RtArr_Thms.v
theories/Cont_Model.v
theories/Cont_Spec.v
theories/Cont_Proofs.v
theories/Cont_Thms.v
theories/Index_Model.v
theories/Index_Spec.v
theories/Index_Proofs.v
theories/Index_Thms.v
theories/Expr_Model.v
theories/Expr_Spec.v
theories/Expr_Proofs.v
theories/Expr_Thms.v
theories/Types_Model.v
theories/Types_Spec.v
theories/Types_Proofs.v
theories/Types_Thms.v
theories/Simp_Model.v
theories/Simp_Spec.v
theories/Simp_Proofs.v
theories/Simp_Thms.v
theories/Sem_Model.v
theories/Sem_Spec.v
theories/Sem_Proofs.v
theories/Sem_Thms.v
theories/Pipe_Model.v
theories/Pipe_Spec.v
theories/Pipe_Proofs.v
theories/Pipe_Thms.v
theories/Proj_Model.v
theories/Proj_Spec.v
theories/Proj_Proofs.v
theories/Proj_Thms.v
theories/Comp_Model.v
theories/Comp_Spec.v
theories/Comp_Proofs.v
theories/Comp_Thms.v
theories/Files_Model.v
theories/Files_Spec.v
theories/Files_Proofs.v
theories/Files_Thms.v
theories/Lock_Model.v
theories/Lock_Spec.v
theories/Lock_Proofs.v
theories/Lock_Thms.v
theories/Text_Model.v
theories/Text_Spec.v
theories/Text_Proofs.v
theories/Text_Wrap.v
theories/Text_Thms.v
theories/Print_Model.v
theories/Print_Spec.v
theories/Print_Proofs.v
theories/Print_Thms.v
theories/PrintF_Model.v
theories/PrintF_Spec.v
theories/PrintF_Proofs.v
theories/PrintF_Thms.v
theories/Graph_Model.v
theories/Graph_Spec.v
theories/Graph_Proofs.v
theories/Graph_Subst.v
theories/Graph_Walk.v
theories/Graph_Search.v
theories/Graph_Thms.v
theories/Loops_Model.v
theories/Loops_Spec.v
theories/Loops_Proofs.v
theories/Loops_Fuse.v
theories/Loops_Main.v
theories/Loops_Thms.v
theories/Unpack_Model.v
theories/Unpack_Spec.v
theories/Unpack_Proofs.v
theories/Unpack_Thms.v
theories/Iter_Model.v
theories/Iter_Spec.v
theories/Iter_Proofs.v
theories/Iter_Comp.v
theories/Iter_Thms.v
theories/Alloc_Model.v
theories/Alloc_Spec.v
theories/Alloc_Static.v
theories/Alloc_Proofs.v
theories/Alloc_Thms.v
theories/Call_Model.v
theories/Call_Spec.v
theories/Call_Proofs.v
theories/Call_Wrap.v
theories/Call_Thms.v
theories/View_Model.v
theories/View_Spec.v
theories/View_Proofs.v
theories/View_Thms.v
theories/Wrap_Model.v
theories/Wrap_Spec.v
theories/Wrap_Proofs.v
theories/Wrap_Thms.v
theories/Flow_Model.v
theories/Flow_Spec.v
theories/Flow_Proofs.v
theories/Flow_Thms.v
theories/Opt_Model.v
theories/Opt_Spec.v
theories/Opt_Proofs.v
theories/Opt_Thms.v
theories/Param_Model.v
theories/Param_Spec.v
theories/Param_Proofs.v
theories/Param_Thms.v
theories/Swap_Model.v
theories/Swap_Spec.v
theories/Swap_Proofs.v
theories/Swap_Thms.v
theories/Inline_Model.v
theories/Inline_Spec.v
theories/Inline_Proofs.v
theories/Inline_Thms.v
theories/Reduce_Model.v
theories/Reduce_Spec.v
theories/Reduce_Proofs.v
theories/Reduce_Thms.v
theories/Matmul_Model.v
theories/Matmul_Spec.v
theories/Matmul_Proofs.v
theories/Matmul_Thms.v
theories/Cross_Model.v
theories/Cross_Spec.v
theories/Cross_Proofs.v
theories/Cross_Thms.v
theories/Init_Model.v
theories/Init_Spec.v
theories/Init_Proofs.v
theories/Init_Thms.v
theories/Space_Model.v
theories/Space_Spec.v
theories/Space_Proofs.v
theories/Space_Thms.v
theories/Alias_Model.v
theories/Alias_Spec.v
theories/Alias_Proofs.v
theories/Alias_Thms.v
theories/Stub_Model.v
theories/Stub_Spec.v
theories/Stub_Proofs.v
theories/Stub_Thms.v
theories/Sign_Model.v
theories/Sign_Spec.v
theories/Sign_Proofs.v
theories/Sign_Thms.v
theories/Life_Model.v
theories/Life_Spec.v
theories/Life_Proofs.v
theories/Life_Thms.v
theories/Refs_Model.v
theories/Refs_Spec.v
theories/Refs_Proofs.v
theories/Refs_Thms.v
theories/Narr_Model.v
theories/Narr_Spec.v
theories/Narr_Proofs.v
theories/Narr_Thms.v
theories/Bag_Model.v
theories/Bag_Spec.v
theories/Bag_Proofs.v
theories/Bag_Thms.v
theories/Ret_Model.v
theories/Ret_Spec.v
theories/Ret_Proofs.v
theories/Ret_Thms.v
theories/Str_Model.v
theories/Str_Spec.v
theories/Str_Proofs.v
theories/Str_Thms.v
theories/Obj_Model.v
theories/Obj_Spec.v
theories/Obj_Proofs.v
theories/Obj_Thms.v
theories/Pow_Model.v
theories/Pow_Spec.v
theories/Pow_Proofs.v
theories/Pow_Thms.v
theories/Glob_Model.v
theories/Glob_Spec.v
theories/Glob_Proofs.v
theories/Glob_Thms.v
theories/Poly_Model.v
theories/Poly_Spec.v
theories/Poly_Proofs.v
theories/Poly_Thms.v
theories/Rep_Model.v
theories/Rep_Spec.v
theories/Rep_Proofs.v
theories/Rep_Thms.v
theories/Deps_Model.v
theories/Deps_Spec.v
theories/Deps_Proofs.v
theories/Deps_Thms.v
theories/Bind_Model.v
theories/Bind_Spec.v
theories/Bind_Proofs.v
theories/Bind_Thms.v
theories/Isin_Model.v
theories/Isin_Spec.v
theories/Isin_Proofs.v
theories/Isin_Thms.v
theories/Cmt_Model.v
theories/Cmt_Spec.v
theories/Cmt_Proofs.v
theories/Cmt_Thms.v
theories/Math_Model.v
theories/Math_Spec.v
theories/Math_Proofs.v
theories/Math_Thms.v
theories/Multi_Model.v
theories/Multi_Spec.v
theories/Multi_Proofs.v
theories/Multi_Thms.v
theories/Round_Model.v
theories/Round_Spec.v
theories/Round_Proofs.v
theories/Round_Thms.v
theories/Tidx_Model.v
theories/Tidx_Spec.v
theories/Tidx_Proofs.v
theories/Tidx_Thms.v
theories/Root_Model.v
theories/Root_Spec.v
theories/Root_Proofs.v
theories/Root_Thms.v
theories/Aug_Model.v
theories/Aug_Spec.v
theories/Aug_Proofs.v
theories/Aug_Thms.v
theories/Ptr_Model.v
theories/Ptr_Spec.v
theories/Ptr_Proofs.v
theories/Ptr_Thms.v
theories/Reuse_Model.v
theories/Reuse_Spec.v
theories/Reuse_Proofs.v
theories/Reuse_Thms.v
theories/Karg_Model.v
theories/Karg_Spec.v
theories/Karg_Proofs.v
theories/Karg_Thms.v
theories/Fdiv_Model.v
theories/Fdiv_Spec.v
theories/Fdiv_Proofs.v
theories/Fdiv_Lemmas.v
theories/Fdiv_Thms.v
theories/Where_Model.v
theories/Where_Spec.v
theories/Where_Proofs.v
theories/Where_Thms.v
theories/Cnz_Model.v
theories/Cnz_Spec.v
theories/Cnz_Proofs.v
theories/Cnz_Thms.v
theories/Norm_Model.v
theories/Norm_Spec.v
theories/Norm_Proofs.v
theories/Norm_Thms.v
theories/Rnd_Model.v
theories/Rnd_Spec.v
theories/Rnd_Proofs.v
theories/Rnd_Thms.v
