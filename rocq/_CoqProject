-Q theories Verif
theories/M_Array.v
theories/M_Base.v
theories/M_Bits.v
theories/M_Code.v
theories/M_Comp.v
theories/M_Emb.v
theories/M_Expr.v
theories/M_Fun.v
theories/M_Gen.v
theories/M_Held.v
theories/M_Infer.v
theories/M_Io.v
theories/M_Item.v
theories/M_Lex.v
theories/M_Limits.v
theories/M_Link.v
theories/M_Lit.v
theories/M_Mod.v
theories/M_Offset.v
theories/M_Parse.v
theories/M_Pkg.v
theories/M_Prim.v
theories/M_Print.v
theories/M_Scope.v
theories/M_Templ.v
theories/M_Text.v
theories/M_Types.v
theories/M_Var.v
theories/M_Visit.v
theories/M_Whole.v
theories/P_Again.v
theories/P_Again2.v
theories/P_Again3.v
theories/P_Alike.v
theories/P_Alike2.v
theories/P_Arg.v
theories/P_Array.v
theories/P_Array2.v
theories/P_Array3.v
theories/P_Array4.v
theories/P_Array5.v
theories/P_Array6.v
theories/P_Base.v
theories/P_Bits.v
theories/P_Calc.v
theories/P_Call.v
theories/P_Calm.v
theories/P_Calm2.v
theories/P_Calm3.v
theories/P_Choice.v
theories/P_Code1.v
theories/P_Code2.v
theories/P_Code3.v
theories/P_Code4.v
theories/P_Code5.v
theories/P_Code6.v
theories/P_Comp1.v
theories/P_Comp2.v
theories/P_Comp3.v
theories/P_Comp4.v
theories/P_Copy.v
theories/P_Emb.v
theories/P_Enum.v
theories/P_Eq.v
theories/P_Evo.v
theories/P_Evo2.v
theories/P_Expr.v
theories/P_Expr2.v
theories/P_Ext.v
theories/P_Ext2.v
theories/P_F16.v
theories/P_F16b.v
theories/P_F16c.v
theories/P_Float.v
theories/P_Float2.v
theories/P_Flt.v
theories/P_Fuel.v
theories/P_Fun.v
theories/P_Gen1.v
theories/P_Gen10.v
theories/P_Gen2.v
theories/P_Gen3.v
theories/P_Gen4.v
theories/P_Gen5.v
theories/P_Gen6.v
theories/P_Gen7.v
theories/P_Gen8.v
theories/P_Gen9.v
theories/P_Io.v
theories/P_Item.v
theories/P_Item2.v
theories/P_Item3.v
theories/P_Item4.v
theories/P_Lean.v
theories/P_Lean2.v
theories/P_Lex.v
theories/P_Lex2.v
theories/P_Lex3.v
theories/P_Lex4.v
theories/P_Lex5.v
theories/P_Lex6.v
theories/P_Lex7.v
theories/P_Limits.v
theories/P_Link.v
theories/P_Lit.v
theories/P_Lower.v
theories/P_Mod.v
theories/P_Obj.v
theories/P_Offset.v
theories/P_Offset2.v
theories/P_Only.v
theories/P_Only2.v
theories/P_Order.v
theories/P_Parse.v
theories/P_Parse2.v
theories/P_Parse3.v
theories/P_Parse4.v
theories/P_Parse5.v
theories/P_Parse6.v
theories/P_Parse7.v
theories/P_Parse8.v
theories/P_Pkg.v
theories/P_Pol.v
theories/P_Pol2.v
theories/P_Prim.v
theories/P_Print.v
theories/P_Range.v
theories/P_Range2.v
theories/P_Range3.v
theories/P_Read.v
theories/P_Repro.v
theories/P_Rigid.v
theories/P_Rigid2.v
theories/P_Rust.v
theories/P_Rust2.v
theories/P_Rust3.v
theories/P_Rust4.v
theories/P_Rust5.v
theories/P_Same.v
theories/P_Scope.v
theories/P_Size.v
theories/P_Size2.v
theories/P_Str.v
theories/P_Templ.v
theories/P_Text.v
theories/P_Text2.v
theories/P_Text3.v
theories/P_Trait.v
theories/P_Trait2.v
theories/P_Trait3.v
theories/P_Tree.v
theories/P_Tree2.v
theories/P_Tree3.v
theories/P_Tree4.v
theories/P_Types.v
theories/P_Var.v
theories/P_Var2.v
theories/P_Visit.v
theories/P_Visit2.v
theories/P_Visit3.v
theories/P_Visit4.v
theories/P_Whole1.v
theories/P_Whole2.v
theories/P_Whole3.v
theories/P_Whole4.v
theories/P_Wire1.v
theories/P_Wire2.v
theories/P_Wire3.v
theories/P_Wire4.v
theories/P_Wire5.v
theories/S_Again.v
theories/S_Alike.v
theories/S_Array.v
theories/S_Base.v
theories/S_Calc.v
theories/S_Calm.v
theories/S_Code.v
theories/S_Comp.v
theories/S_Double.v
theories/S_Elem.v
theories/S_Eq.v
theories/S_Evo.v
theories/S_Expr.v
theories/S_Float.v
theories/S_Flt.v
theories/S_Fun.v
theories/S_Gen.v
theories/S_Io.v
theories/S_Item.v
theories/S_Lean.v
theories/S_Lex.v
theories/S_Limits.v
theories/S_Link.v
theories/S_Lit.v
theories/S_Mod.v
theories/S_Obj.v
theories/S_Offset.v
theories/S_Only.v
theories/S_Order.v
theories/S_Parse.v
theories/S_Pkg.v
theories/S_Pol.v
theories/S_Prim.v
theories/S_Print.v
theories/S_Range.v
theories/S_Read.v
theories/S_Real.v
theories/S_Repro.v
theories/S_Rigid.v
theories/S_Round.v
theories/S_Rust.v
theories/S_Rust2.v
theories/S_Scope.v
theories/S_Size.v
theories/S_Str.v
theories/S_Templ.v
theories/S_Text.v
theories/S_Trait.v
theories/S_Tree.v
theories/S_Tree2.v
theories/S_Types.v
theories/S_Var.v
theories/S_Visit.v
theories/S_Whole.v
theories/S_Wire.v
theories/T_Again.v
theories/T_Alike.v
theories/T_Array.v
theories/T_Bits.v
theories/T_Call.v
theories/T_Calm.v
theories/T_Choice.v
theories/T_Code.v
theories/T_Comp.v
theories/T_Double.v
theories/T_Emb.v
theories/T_Eq.v
theories/T_Evo.v
theories/T_Expr.v
theories/T_Flt.v
theories/T_Fun.v
theories/T_Gen.v
theories/T_Gen2.v
theories/T_Gen3.v
theories/T_Held.v
theories/T_Io.v
theories/T_Item.v
theories/T_Lean.v
theories/T_Lex.v
theories/T_Limits.v
theories/T_Link.v
theories/T_Lit.v
theories/T_Mod.v
theories/T_Obj.v
theories/T_Offset.v
theories/T_Only.v
theories/T_Order.v
theories/T_Parse.v
theories/T_Pkg.v
theories/T_Pol.v
theories/T_Prim.v
theories/T_Print.v
theories/T_Range.v
theories/T_Repro.v
theories/T_Rigid.v
theories/T_Round.v
theories/T_Rust.v
theories/T_Scope.v
theories/T_Size.v
theories/T_Str.v
theories/T_Templ.v
theories/T_Text.v
theories/T_Trait.v
theories/T_Tree.v
theories/T_Types.v
theories/T_Var.v
theories/T_Visit.v
theories/T_Whole.v
theories/T_Wire.v
theories/X_Again.v
theories/X_Alike.v
theories/X_Alike2.v
theories/X_Call.v
theories/X_Calm.v
theories/X_Calm2.v
theories/X_Code.v
theories/X_Comp.v
theories/X_Eq.v
theories/X_Evo.v
theories/X_Flt.v
theories/X_Fun.v
theories/X_Gen.v
theories/X_Gen2.v
theories/X_Held.v
theories/X_Io.v
theories/X_Item.v
theories/X_Lean.v
theories/X_Lex.v
theories/X_Obj.v
theories/X_Offset.v
theories/X_Only.v
theories/X_Parse.v
theories/X_Range.v
theories/X_Repro.v
theories/X_Rigid.v
theories/X_Str.v
theories/X_Text.v
theories/X_Trait.v
theories/X_Tree.v
theories/X_Whole.v
theories/X_Wire.v
