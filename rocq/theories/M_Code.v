(** Model of the bodies of the generated functions as they are printed: one line after
    the other, blocks opened by one line and closed by another. A body is parsed by its
    braces and run statement by statement. M_Gen models what the bodies mean; here
    they are the lines themselves, with names of members and local variables.
    Rust is cited as [file:lines] of /repo/crates/zserio-rs-build/src/internal/generator.
    Lines with the comment "// read ... field" are left out, and a Rust struct literal
    printed over several lines is one line here. Names are the converted ones of
    [types.rs:62-80]. *)
From Coq Require Import ZArith List Bool String.
From Verif Require Import M_Base M_Bits M_Var M_Prim M_Array S_Var M_Gen M_Expr M_Print M_Comp.
Import ListNotations.
Open Scope string_scope.
Open Scope list_scope.
Open Scope Z_scope.

(** ** Lines *)

(** What a line works on: [self.m], a local variable, [( *self as T)] of an enum, and
    [self.bits] of a bitmask. *)
Inductive spot := OnMember (m : string) | OnVar (x : string) | OnCast (b : bty) | OnBits.
(** Left of [=]: a place, or [let x: T]. *)
Inductive target := ToSpot (p : spot) | ToLet (x : string).
(** A member of a struct literal: its name, its type, and the argument it gets. *)
Record init := Init { it_name : string; it_type : option stype; it_arg : sarg }.

(** The number [k] of the Rust type is not printed where a method is called; it is the
    type of the receiver. So is the type [t] of the elements of [LArrayRead]. The boolean [off] says that index offsets are passed. *)
Inductive line :=
(* blocks *)
| LIf (a : aexpr)                              (* if e { *)
| LOpen                                        (* { *)
| LIfSome (p : spot)                           (* if let Some(x) = p { *)
| LIfPresent                                   (* if present { *)
| LElse                                        (* } else { *)
| LForIndex (p : spot)                         (* for (param_index, element) in p.iter().enumerate() { *)
| LForIn (p : spot)                            (* for element in &p { *)
| LForRange (y : string)                       (* for param_index in 0..y { *)
| LClose                                       (* } *)
| LMatch (sel : expr)                          (* match self.sel { *)
| LMatchUnion                                  (* match &self.union_selector { *)
| LArm (es : list expr)                        (* e | ... => { *)
| LArmVariant (v : string)                     (* TSelector::v => { *)
| LCloseArm                                    (* }, *)
| LArmParen                                    (* _ => ( *)
| LCloseParen                                  (* ), *)
| LArmUnit                                     (* _ => (), *)
(* arrays *)
| LLetArray (x : string) (t : stype) (len : option aexpr) (packed : bool)
                                               (* let mut x = ztype::Array::<T>{ ... }; *)
| LArrayWrite (x : string) (p : spot) (off : bool)        (* x.zserio_write(writer, &p, off)?; *)
| LArraySize (x : string) (p : spot) (off : bool)         (* end_position += x.zserio_bitsize(&p, off, end_position)?; *)
| LArrayLength (y x : string)                  (* let y = x.zserio_read_array_length(reader)?; *)
| LArrayRead (x : string) (t : stype) (p : spot) (y : string) (off : bool)  (* x.zserio_read(reader, &mut p, y, off)?; *)
| LClear (p : spot)                            (* p.clear(); *)
| LReserve (p : spot) (y : string)             (* p.reserve(y.min(zserio::get_array_alloc_chunk())); *)
| LLetContext (c x : string)                   (* let mut c = x.array_trait.create_context(); *)
| LReadOne (x c item : string) (off : bool)    (* x.read_one_element(reader, &mut c, &mut item, param_index, off)?; *)
| LPush (p : spot) (item : string)             (* p.push(item); *)
(* writing *)
| LWriteBool (b : bool)                        (* writer.write_bool(b)?; *)
| LAlignWriter (n : Z)                         (* ztype::align_writer(writer, n)?; *)
| LAssertArg (p : spot) (k : nat) (q : init)   (* assert!(p.name == arg); *)
| LAssertLen (p : spot) (a : aexpr)            (* assert!(p.len() == (e) as usize); *)
| LWriteObj (p : spot) (k : nat)               (* p.zserio_write(writer)?; *)
| LWriteObjPacked (p : spot) (k i : nat)       (* p.zserio_write_packed(&mut context_node.children[i], writer)?; *)
| LWriteCall (t : stype) (p : spot)            (* ztype::write_t(writer, p)?; *)
| LWriteCtx (i : nat) (t : stype) (p : spot)   (* context_node.children[i].context.as_mut().unwrap().write(&trait, writer, &p)?; *)
(* sizes *)
| LAddAlign (n : Z)                            (* end_position += ztype::align_bitsize(end_position, n); *)
| LAddOne                                      (* end_position += 1; *)
| LAddObj (p : spot) (k : nat)                 (* end_position += p.zserio_bitsize(end_position).unwrap(); *)
| LAddObjPacked (p : spot) (k i : nat)         (* ... p.zserio_bitsize_packed(&mut context_node.children[i], end_position).unwrap(); *)
| LAddCall (t : stype) (p : spot)              (* end_position += the size of the builtin type; *)
| LAddCtx (i : nat) (t : stype) (p : spot)     (* end_position += context_node.children[i].context.as_mut().unwrap().bitsize_of(&trait, end_position, &p)?; *)
(* reading *)
| LAlignReader (n : Z)                         (* ztype::align_reader(reader, n)?; *)
| LLetPresent                                  (* let present = reader.read_bool()?; *)
| LLetDefault (x : string) (arr : bool) (t : stype)  (* let mut x: T = Default::default(); *)
| LLetLiteral (x : string) (k : nat) (l : list init) (rest : bool)  (* let mut x = T { name: arg, ... ..Default::default() }; *)
| LSetItem (x : string) (k : nat) (q : init)   (* x.name = arg; *)
| LAssign (p : spot) (x : string)              (* p = x; *)
| LReadObj (p : spot) (k : nat)                (* p.zserio_read(reader)?; *)
| LReadObjPacked (p : spot) (k i : nat)        (* p.zserio_read_packed(&mut context_node.children[i], reader)?; *)
| LReadCall (g : target) (t : stype)           (* g = ztype::read_t(reader)?; *)
| LReadCtx (i : nat) (t : stype) (p : spot)    (* context_node.children[i].context.as_mut().unwrap().read(&trait, reader, &mut p)?; *)
| LStore (m : string)                          (* self.m = Option::from(optional_value); *)
(* contexts *)
| LLetNode (x : string)                        (* let mut x = PackingContextNode::new(); *)
| LCreateNode (k : nat) (x : string)           (* T::zserio_create_packing_context(&mut x); *)
| LNodeContext (x : string)                    (* x.context = Some(DeltaContext::new()); *)
| LPushNode (x : string)                       (* context_node.children.push(x); *)
| LInitObj (p : spot) (k i : nat)              (* p.zserio_init_packing_context(&mut context_node.children[i])?; *)
| LInitCtx (i : nat) (t : stype) (p : spot)    (* context_node.children[i].context.as_mut().unwrap().init(&trait, &p)?; *)
(* unions, enums, bitmasks *)
| LWriteSelector                               (* ztype::write_varsize(writer, self.union_selector as u32)?; *)
| LReadSelector                                (* self.union_selector = TSelector::from_u32(ztype::read_varsize(reader)?); *)
| LAddSelector                                 (* end_position += ztype::varsize_bitsize(self.union_selector as u32)? as u64; *)
| LLetZero                                     (* let mut v: T = 0; *)
| LTryFrom                                     (* *self = T::try_from(v as i64)?; *)
| LSetBits                                     (* self.bits = v; *)
| LSelfContext                                 (* context_node.context = Some(DeltaContext::new()); *)
| LPushDelta                                   (* context_node.children.push(PackingContextNode { ... }); *)
(* ends *)
| LLetEnd                                      (* let mut end_position = bit_position; *)
| LOk                                          (* Ok(()) *)
| LSize.                                       (* Ok(end_position - bit_position) *)

(** ** What is printed for a field *)

Section Print.
Variable defs : list sdef.

(** [array.rs:9-12] array_type_name. *)
Definition array_name (f : sfield) : string := ("zs_array_" ++ sf_name f)%string.
(** [decode.rs:280], [decode.rs:307], [packed_contexts.rs:46]. *)
Definition length_name (f : sfield) : string := (sf_name f ++ "_array_length")%string.
Definition packing_name (f : sfield) : string := (array_name f ++ "_packing_context")%string.
Definition node_name (f : sfield) : string := ("field_" ++ sf_name f ++ "_node")%string.

(** [packed_contexts.rs:73-116], as in M_Gen. *)
Definition packable_type (t : stype) : bool :=
  match t with SBuiltin b => bty_packable b | _ => true end.
Definition packable (f : sfield) : bool :=
  if sf_is_offset f then false
  else match sf_array f with Some _ => true | None => packable_type (sf_ty f) end.

Fixpoint nodes (e : expr) : nat :=
  S match e with
    | ELit _ | EIndex | EId _ => 0
    | EParen a | ECall a | EDot a _ | ELengthof a | EValueof a | ENumbits a | EUn _ a => nodes a
    | EElem a i | EIsset a i | EBin _ a i => nodes a + nodes i
    | ETern c a d => nodes c + nodes a + nodes d
    end.
Definition arg_expr (a : sarg) : expr := match a with AVal a => a_src a | AObj e => e end.
(** [pass_parameters.rs:57-77]. *)
Definition uses_index (a : sarg) : bool :=
  match index_loop (S (nodes (arg_expr a))) [arg_expr a] with Some b => b | None => false end.

Definition type_args (t : stype) : list sarg := match t with SRef _ l => l | _ => [] end.
Definition type_number (t : stype) : nat := match t with SRef k _ => k | _ => O end.

(** [pass_parameters.rs:10-21] with the arguments, [encode.rs:227-259],
    [decode.rs:222-262]: parameter number [j] of declaration [k] on. The generator
    aborts if there are more arguments than parameters. *)
Definition param_name (k j : nat) : string :=
  match nth_error defs k with
  | Some d => match nth_error (sdef_params d) j with Some p => sf_name p | None => "" end
  | None => ""
  end.
Fixpoint inits (k j : nat) (args : list sarg) : list init :=
  match args with
  | [] => []
  | a :: t => Init (param_name k j) (param_type defs k j) a :: inits k (S j) t
  end.
(** [pass_parameters.rs:24-54]; a default case is not counted. *)
Definition data_fields (k : nat) : nat :=
  match nth_error defs k with
  | Some (SStruct _ _ fl) | Some (SUnion _ _ fl) => List.length fl
  | Some (SChoice _ _ _ cases _) => List.length cases
  | _ => O
  end.
Definition all_fields (k : nat) : nat :=
  match nth_error defs k with
  | Some d => data_fields k + List.length (sdef_params d)
  | None => O
  end.

(** [array.rs:94-131] instantiate_zserio_array. *)
Definition let_array (force : bool) (f : sfield) : list line :=
  match sf_array f with
  | None => []
  | Some a => [LLetArray (array_name f) (sf_ty f) (sa_len a) ((sa_packed a || force) && packable f)]
  end.

Definition open_clause (f : sfield) : list line :=
  match sf_clause f with Some a => [LIf a] | None => [] end.
Definition close_clause (f : sfield) : list line :=
  match sf_clause f with Some a => [LClose] | None => [] end.
Definition by_index (f : sfield) : bool := match sf_offset f with IndexOffset => true | _ => false end.
Definition by_offset (f : sfield) : bool := match sf_offset f with Offset => true | _ => false end.

(** Types that are not packed: [encode.rs:36-57], [decode.rs:43-62], [bitsize.rs:37-54]. *)
Definition never_packed (t : stype) : bool :=
  match t with SBuiltin (BString | BExtern | BBytes | BBool) => true | _ => false end.

(** [encode.rs:16-103]. *)
Definition write_type (packed : bool) (i : nat) (t : stype) (p : spot) : list line :=
  match t with
  | SRef k _ => [if packed then LWriteObjPacked p k i else LWriteObj p k]
  | _ => [if packed && negb (never_packed t) then LWriteCtx i t p else LWriteCall t p]
  end.
(** [encode.rs:186-261]. *)
Definition write_checks (f : sfield) (p : spot) : list line :=
  let k := type_number (sf_ty f) in
  let args := type_args (sf_ty f) in
  match args with
  | [] => []
  | _ =>
    match sf_array f with
    | Some _ =>
        [if existsb uses_index args then LForIndex p else LForIn p]
        ++ map (LAssertArg (OnVar "element") k) (inits k 0 args) ++ [LClose]
    | None => map (LAssertArg p k) (inits k 0 args)
    end
  end.
(** [encode.rs:125-312]. *)
Definition write_field (packed : bool) (i : nat) (f : sfield) : list line :=
  let p := if sf_optional f then OnVar "x" else OnMember (sf_name f) in
  open_clause f
  ++ (if sf_align f =? 0 then [] else [LAlignWriter (sf_align f)])
  ++ (if by_offset f then [LAlignWriter 8] else [])
  ++ (if sf_optional f then [LIfSome (OnMember (sf_name f)); LWriteBool true] else [])
  ++ write_checks f p
  ++ match sf_array f with
     | Some a => match sa_len a with Some e => [LAssertLen p e] | None => [] end
                 ++ [LArrayWrite (array_name f) p (by_index f)]
     | None => write_type (packed && packable f) i (sf_ty f) p
     end
  ++ (if sf_optional f then [LElse; LWriteBool false; LClose] else [])
  ++ close_clause f.

(** [bitsize.rs:12-111]. *)
Definition size_type (packed : bool) (i : nat) (t : stype) (p : spot) : list line :=
  match t with
  | SRef k _ => [if packed then LAddObjPacked p k i else LAddObj p k]
  | SBuiltin b =>
      [if packed && negb (never_packed t) && negb (fixed_bits b) then LAddCtx i t p else LAddCall t p]
  | SBits _ _ => [if packed then LAddCtx i t p else LAddCall t p]
  end.
(** [bitsize.rs:113-202]. *)
Definition size_field (packed : bool) (i : nat) (f : sfield) : list line :=
  let p := if sf_optional f then OnVar "x" else OnMember (sf_name f) in
  open_clause f
  ++ (if sf_align f =? 0 then [] else [LAddAlign (sf_align f)])
  ++ (if by_offset f then [LAddAlign 8] else [])
  ++ (if sf_optional f then [LAddOne; LIfSome (OnMember (sf_name f))] else [])
  ++ match sf_array f with
     | Some _ => [LArraySize (array_name f) p (by_index f)]
     | None => size_type (packed && packable f) i (sf_ty f) p
     end
  ++ (if sf_optional f then [LClose] else [])
  ++ close_clause f.

(** [decode.rs:18-113]: the target of a packed type is the right-hand name. *)
Definition read_type (packed : bool) (i : nat) (t : stype) (g : target) (p : spot) : list line :=
  match t with
  | SRef k _ => [if packed then LReadObjPacked p k i else LReadObj p k]
  | _ => [if packed && negb (never_packed t) then LReadCtx i t p else LReadCall g t]
  end.
(** [decode.rs:273-412]: the loop of an array of a type with arguments. *)
Definition read_items (f : sfield) (p : spot) : list line :=
  let k := type_number (sf_ty f) in
  let l := inits k 0 (type_args (sf_ty f)) in
  let late q := uses_index (it_arg q) in
  let delay := existsb late l in
  [LClear p; LReserve p (length_name f); LLetContext (packing_name f) (array_name f);
   LForRange (length_name f);
   LLetLiteral "zs_item" k (filter (fun q => negb (late q)) l) (Nat.ltb 0 (data_fields k) || delay)]
  ++ (if delay then map (LSetItem "zs_item" k) (filter late l) else [])
  ++ [LReadOne (array_name f) (packing_name f) "zs_item" (by_index f); LPush p "zs_item"; LClose].
(** [decode.rs:115-445]. *)
Definition read_field (packed : bool) (i : nat) (f : sfield) : list line :=
  let p := if sf_optional f then OnVar "optional_value" else OnMember (sf_name f) in
  let k := type_number (sf_ty f) in
  let args := type_args (sf_ty f) in
  [match sf_clause f with Some a => LIf a | None => LOpen end]
  ++ (if sf_align f =? 0 then [] else [LAlignReader (sf_align f)])
  ++ (if by_offset f then [LAlignReader 8] else [])
  ++ (if sf_optional f
      then [LLetPresent; LIfPresent;
            LLetDefault "optional_value" (match sf_array f with Some _ => true | None => false end) (sf_ty f)]
      else [])
  ++ match sf_array f with
     | Some _ =>
         [LArrayLength (length_name f) (array_name f)]
         ++ match args with
            | [] => [LArrayRead (array_name f) (sf_ty f) p (length_name f) (by_index f)]
            | _ => read_items f p
            end
     | None =>
         [match args with
          | [] => LLetDefault "initial_value" false (sf_ty f)
          | _ => LLetLiteral "initial_value" k (inits k 0 args) (Nat.ltb 0 (all_fields k))
          end;
          LAssign p "initial_value"]
         ++ read_type (packed && packable f) i (sf_ty f) (ToSpot p) p
     end
  ++ (if sf_optional f then [LStore (sf_name f); LClose] else [])
  ++ [LClose].

Definition is_ref (t : stype) : bool := match t with SRef _ _ => true | _ => false end.
(** [packed_contexts.rs:118-142]. *)
Definition create_field (f : sfield) : list line :=
  [LLetNode (node_name f)]
  ++ match sf_array f with
     | Some _ => []
     | None => match sf_ty f with
               | SRef k _ => [LCreateNode k (node_name f)]
               | _ => if packable f then [LNodeContext (node_name f)] else []
               end
     end
  ++ [LPushNode (node_name f)].
(** [packed_contexts.rs:144-210]; the two lines of a delta context are one here. *)
Definition init_field (i : nat) (f : sfield) : list line :=
  match sf_array f with
  | Some _ => []
  | None =>
    if negb (is_ref (sf_ty f)) && negb (packable f) then []
    else
      let p := if sf_optional f then OnVar "x" else OnMember (sf_name f) in
      open_clause f
      ++ (if sf_optional f then [LIfSome (OnMember (sf_name f))] else [])
      ++ [match sf_ty f with SRef k _ => LInitObj p k i | t => LInitCtx i t p end]
      ++ (if sf_optional f then [LClose] else [])
      ++ close_clause f
  end.

(** ** What is printed for a type *)

Fixpoint per_field (i : nat) (g : nat -> sfield -> list line) (fl : list sfield) : list line :=
  match fl with
  | [] => []
  | f :: t => (g i f ++ per_field (S i) g t)%list
  end.

(** [zchoice.rs:134-208]: [g] prints a field with its number, [force] is passed to
    instantiate_zserio_array. *)
Fixpoint match_arms (i : nat) (cases : list (list expr * option sfield)) (dflt : option (option sfield))
  (packed : bool) (g : nat -> sfield -> list line) : list line :=
  match cases with
  | (es, fo) :: t =>
      [LArm es]
      ++ match fo with Some f => let_array packed f ++ g i f | None => [] end
      ++ [LCloseArm]
      ++ match_arms (match fo with Some _ => S i | None => i end) t dflt packed g
  | [] =>
      match dflt with
      | Some fo => [LArmParen]
                   ++ match fo with Some f => let_array false f ++ g i f | None => [] end
                   ++ [LCloseParen]
      | None => [LArmUnit]
      end
  end.
(** [zunion.rs:157-195]. *)
Definition union_arms (packed : bool) (g : nat -> sfield -> list line) (fl : list sfield) : list line :=
  per_field 0 (fun i f => [LArmVariant (sf_name f)] ++ let_array packed f ++ g i f ++ [LCloseArm]) fl.

Definition self_of (d : sdef) : spot := match d with SEnum _ b _ => OnCast b | _ => OnBits end.

(** [zstruct.rs:167-220], [zchoice.rs:247-281], [zunion.rs:238-276],
    [zenum.rs:178-220], [zbitmask.rs:139-176]. *)
Definition write_body (d : sdef) (packed : bool) : list line :=
  match d with
  | SStruct _ _ fl => per_field 0 (fun i f => let_array packed f ++ write_field packed i f) fl
  | SChoice _ _ sel cases dflt =>
      [LMatch sel] ++ match_arms 0 cases dflt packed (write_field packed) ++ [LClose]
  | SUnion _ _ fl =>
      [LWriteSelector; LMatchUnion] ++ union_arms packed (write_field packed) fl ++ [LClose]
  | SEnum _ b _ | SMask _ b _ => write_type packed 0 (SBuiltin b) (self_of d)
  end ++ [LOk].
(** [zstruct.rs:125-165], [zchoice.rs:210-245], [zunion.rs:197-236],
    [zenum.rs:127-176], [zbitmask.rs:91-137]. *)
Definition read_body (d : sdef) (packed : bool) : list line :=
  match d with
  | SStruct _ _ fl => per_field 0 (fun i f => let_array packed f ++ read_field packed i f) fl
  | SChoice _ _ sel cases dflt =>
      [LMatch sel] ++ match_arms 0 cases dflt packed (read_field packed) ++ [LClose]
  | SUnion _ _ fl =>
      (if packed then [] else [LReadSelector])
      ++ [LMatchUnion] ++ union_arms packed (read_field packed) fl ++ [LClose]
  | SEnum _ b _ | SMask _ b _ =>
      (if packed then [LLetZero] else [])
      ++ read_type packed 0 (SBuiltin b) (ToLet "v") (OnVar "v")
      ++ [match d with SEnum _ _ _ => LTryFrom | _ => LSetBits end]
  end ++ [LOk].
(** [zstruct.rs:222-264], [zchoice.rs:283-319], [zunion.rs:278-316],
    [zenum.rs:222-266], [zbitmask.rs:178-225]. *)
Definition size_body (d : sdef) (packed : bool) : list line :=
  [LLetEnd] ++
  match d with
  | SStruct _ _ fl => per_field 0 (fun i f => let_array packed f ++ size_field packed i f) fl
  | SChoice _ _ sel cases dflt =>
      [LMatch sel] ++ match_arms 0 cases dflt packed (size_field packed) ++ [LClose]
  | SUnion _ _ fl =>
      (if packed then [] else [LAddSelector])
      ++ [LMatchUnion] ++ union_arms packed (size_field packed) fl ++ [LClose]
  | SEnum _ b _ | SMask _ b _ => size_type packed 0 (SBuiltin b) (self_of d)
  end ++ [LSize].
(** [zstruct.rs:85-103], [zchoice.rs:93-112], [zunion.rs:126-135], [zenum.rs:103-116],
    [zbitmask.rs:70-84]; those of structs and choices visit all fields, whatever the
    selector. *)
Definition create_body (d : sdef) : list line :=
  match d with
  | SStruct _ _ _ | SChoice _ _ _ _ _ => flat_map create_field (sdef_fields d)
  | SUnion _ _ _ => []
  | SEnum _ _ _ => [LPushDelta]
  | SMask _ _ _ => [LSelfContext; LPushDelta]
  end.
Definition init_body (d : sdef) : list line :=
  match d with
  | SStruct _ _ _ | SChoice _ _ _ _ _ => per_field 0 init_field (sdef_fields d) ++ [LOk]
  | SUnion _ _ _ => [LOk]
  | SEnum _ b _ | SMask _ b _ => [LInitCtx 0 (SBuiltin b) (self_of d); LOk]
  end.
End Print.

(** ** Parsing *)

Inductive stmt :=
| Do (l : line)
| Block (h : line) (body : list stmt) (els : option (list stmt))
| Cases (h : line) (arms : list (line * list stmt)).

Inductive shape := Plain | Opens (with_else : bool) | Matches | Ends.
Definition shape_of (l : line) : shape :=
  match l with
  | LIf _ | LIfSome _ | LIfPresent => Opens true
  | LOpen | LForIndex _ | LForIn _ | LForRange _ => Opens false
  | LMatch _ | LMatchUnion => Matches
  | LElse | LClose | LArm _ | LArmVariant _ | LCloseArm | LArmParen | LCloseParen | LArmUnit => Ends
  | _ => Plain
  end.
(** What stands between parentheses is an expression: nothing, or one block without a
    semicolon. *)
Definition is_expr (b : list stmt) : bool :=
  match b with
  | [] => true
  | [Block h _ _] => match h with LIf _ | LOpen | LIfSome _ | LIfPresent => true | _ => false end
  | _ => false
  end.

(** The grammar of blocks of Rust; [fuel] bounds the number of steps. *)
Fixpoint parse (fuel : nat) (ls : list line) : option (list stmt * list line) :=
  match fuel with
  | O => None
  | S g =>
    match ls with
    | [] => Some ([], [])
    | l :: t =>
      let next s r :=
        match parse g r with Some (ss, r) => Some (s :: ss, r) | None => None end in
      match shape_of l with
      | Ends => Some ([], ls)
      | Plain => next (Do l) t
      | Opens e =>
          match parse g t with
          | Some (b, LClose :: r) => next (Block l b None) r
          | Some (b, LElse :: r) =>
              if e then
                match parse g r with
                | Some (c, LClose :: r) => next (Block l b (Some c)) r
                | _ => None
                end
              else None
          | _ => None
          end
      | Matches =>
          match parse_arms g t with
          | Some (arms, LClose :: r) => next (Cases l arms) r
          | _ => None
          end
      end
    end
  end
with parse_arms (fuel : nat) (ls : list line) : option (list (line * list stmt) * list line) :=
  match fuel with
  | O => None
  | S g =>
    let next a r :=
      match parse_arms g r with Some (arms, r) => Some (a :: arms, r) | None => None end in
    match ls with
    | LArmUnit :: t => next (LArmUnit, []) t
    | ((LArm _ | LArmVariant _) as l) :: t =>
        match parse g t with
        | Some (b, LCloseArm :: r) => next (l, b) r
        | _ => None
        end
    | LArmParen :: t =>
        match parse g t with
        | Some (b, LCloseParen :: r) => if is_expr b then next (LArmParen, b) r else None
        | _ => None
        end
    | _ => Some ([], ls)
    end
  end.
(** A whole body. *)
Definition parse_body (ls : list line) : option (list stmt) :=
  match parse (S (List.length ls)) ls with Some (b, []) => Some b | _ => None end.

(** ** Running *)

(** Local variables hold values, arrays, packing contexts, numbers and booleans. *)
Inductive lvar :=
| VVal (v : value) | VArray (a : array value) | VNode (c : ctxnode) | VNum (z : Z) | VFlag (b : bool).

(** [self], the local variables (newest first), [context_node], [writer], [reader],
    [bit_position], [end_position], and the number of a finished function. *)
Record state := State {
  s_self : value;
  s_vars : list (string * lvar);
  s_ctx : ctxnode;
  s_out : writer;
  s_in : reader;
  s_start : Z;
  s_end : Z;
  s_ret : option Z }.

Definition set_self (v : value) (s : state) : state :=
  State v (s_vars s) (s_ctx s) (s_out s) (s_in s) (s_start s) (s_end s) (s_ret s).
Definition set_vars (l : list (string * lvar)) (s : state) : state :=
  State (s_self s) l (s_ctx s) (s_out s) (s_in s) (s_start s) (s_end s) (s_ret s).
Definition set_ctx (c : ctxnode) (s : state) : state :=
  State (s_self s) (s_vars s) c (s_out s) (s_in s) (s_start s) (s_end s) (s_ret s).
Definition set_out (w : writer) (s : state) : state :=
  State (s_self s) (s_vars s) (s_ctx s) w (s_in s) (s_start s) (s_end s) (s_ret s).
Definition set_in (r : reader) (s : state) : state :=
  State (s_self s) (s_vars s) (s_ctx s) (s_out s) r (s_start s) (s_end s) (s_ret s).
Definition set_end (z : Z) (s : state) : state :=
  State (s_self s) (s_vars s) (s_ctx s) (s_out s) (s_in s) (s_start s) z (s_ret s).
Definition set_ret (z : Z) (s : state) : state :=
  State (s_self s) (s_vars s) (s_ctx s) (s_out s) (s_in s) (s_start s) (s_end s) (Some z).

(** [let x = v;]. *)
Definition bind_var (x : string) (v : lvar) (s : state) : state := set_vars ((x, v) :: s_vars s) s.
(** The end of a block: its own variables go. *)
Definition leave (s0 s : state) : state :=
  set_vars (skipn (List.length (s_vars s) - List.length (s_vars s0)) (s_vars s)) s.
(** [x = v;] for a variable that exists; the newest of this name. *)
Fixpoint put (x : string) (v : lvar) (l : list (string * lvar)) : option (list (string * lvar)) :=
  match l with
  | [] => None
  | (y, u) :: t =>
      if String.eqb x y then Some ((y, v) :: t)
      else match put x v t with Some t => Some ((y, u) :: t) | None => None end
  end.
Definition set_var (x : string) (v : lvar) (s : state) : res state :=
  match put x v (s_vars s) with Some l => Ok (set_vars l s) | None => Panic end.

Definition var_value (s : state) (x : string) : res value :=
  match assoc (s_vars s) x with Some (VVal v) => Ok v | _ => Panic end.
Definition var_array (s : state) (x : string) : res (array value) :=
  match assoc (s_vars s) x with Some (VArray a) => Ok a | _ => Panic end.
Definition var_node (s : state) (x : string) : res ctxnode :=
  match assoc (s_vars s) x with Some (VNode c) => Ok c | _ => Panic end.
Definition var_num (s : state) (x : string) : res Z :=
  match assoc (s_vars s) x with Some (VNum z) => Ok z | _ => Panic end.
Definition var_flag (s : state) (x : string) : res bool :=
  match assoc (s_vars s) x with Some (VFlag b) => Ok b | _ => Panic end.

Definition list_of (v : value) : res (list value) := match v with VArr l => Ok l | _ => Panic end.

(** [v.m] and [v.m = x] for an object of declaration [d]. *)
Definition member_of (d : sdef) (v : value) (m : string) : res value :=
  match v, find_member d m with
  | VObj _ ps fs, Some (b, i, _) => M_Gen.get i (if b then ps else fs)
  | _, _ => Panic
  end.
Definition set_member (d : sdef) (v : value) (m : string) (x : value) : res value :=
  match v, find_member d m with
  | VObj s ps fs, Some (true, i, _) => Ok (VObj s (upd i x ps) fs)
  | VObj s ps fs, Some (false, i, _) => Ok (VObj s ps (upd i x fs))
  | _, _ => Panic
  end.

(** [zserio/src/ztype/array.rs:148-164]. *)
Definition read_one_element (a : array value) (off : bool) (c : ctxnode) (v : value) (r : reader)
  : res (value * ctxnode * reader) :=
  do r <- align_elem_reader off r ;
  if a_packed a then at_read_packed (a_trait a) c v r
  else do (v, r) <- at_read (a_trait a) v r ; Ok (v, c, r).

Section Run.
Variables (E : env) (im : nat -> obj_impl) (I : interp) (defs : list sdef).
(** The declaration the function belongs to, and its number. *)
Variables (n : nat) (d : sdef).

Definition self_ps (s : state) : list value := match s_self s with VObj _ ps _ => ps | _ => [] end.
Definition self_fs (s : state) : list value := match s_self s with VObj _ _ fs => fs | _ => [] end.

(** The builtin type of a call or trait; in arrays the text of its length differs
    (M_Comp.width_text). *)
Definition scalar_of (arr : bool) (t : stype) : res bty :=
  match lower_type I defs n arr t with TB b => Ok b | M_Gen.TRef _ _ => Panic end.
Definition bits_of_type (b : bty) (s : state) : res Z := num_bits b (self_ps s) (self_fs s).

Definition at_spot (s : state) (p : spot) : res value :=
  match p with
  | OnMember m => member_of d (s_self s) m
  | OnVar x => var_value s x
  | OnCast b => match s_self s with VInt x => Ok (VInt (rust_as b x)) | v => Ok v end
  | OnBits => Ok (s_self s)
  end.
Definition set_spot (s : state) (p : spot) (v : value) : res state :=
  match p with
  | OnMember m => do o <- set_member d (s_self s) m v ; Ok (set_self o s)
  | OnVar x => set_var x (VVal v) s
  | _ => Panic
  end.

(** The value of an argument; [param_index] is a variable in loops only. *)
Definition arg_value (s : state) (q : init) : res value :=
  match assoc (s_vars s) "param_index" with
  | Some (VNum i) => in_arg I n true (it_type q) (it_arg q) i (self_ps s) (self_fs s)
  | _ => in_arg I n false (it_type q) (it_arg q) 0 (self_ps s) (self_fs s)
  end.
Definition decl (k : nat) : res sdef :=
  match nth_error defs k with Some e => Ok e | None => Panic end.
(** [T { ..., ..Default::default() }], and without the rest, when all members are given. *)
Fixpoint values_of (s : state) (l : list init) : res (list (string * value)) :=
  match l with
  | [] => Ok []
  | q :: t => do x <- arg_value s q ; do r <- values_of s t ; Ok ((it_name q, x) :: r)
  end.
Fixpoint set_members (e : sdef) (l : list (string * value)) (v : value) : res value :=
  match l with
  | [] => Ok v
  | (m, x) :: t => do v <- set_member e v m x ; set_members e t v
  end.
Fixpoint same_names (l m : list string) : bool :=
  match l, m with
  | [], [] => true
  | a :: l, b :: m => String.eqb a b && same_names l m
  | _, _ => false
  end.
Definition has_selector (e : sdef) : bool := match e with SUnion _ _ _ => true | _ => false end.
Definition literal (s : state) (k : nat) (l : list init) (rest : bool) : res value :=
  do e <- decl k ;
  do qs <- values_of s l ;
  if rest then do v <- oi_default (im k) ; set_members e qs v
  else if same_names (map fst qs) (map sf_name (sdef_params e ++ sdef_fields e)) && negb (has_selector e)
  then Ok (VObj 0 (map snd qs) [])
  else Panic.

Definition element_trait (t : stype) (s : state) : res (array_trait value) :=
  match lower_type I defs n true t with
  | TB b => do m <- bits_of_type b s ; Ok (delta_trait E (bty_ops E b m))
  | M_Gen.TRef k _ => Ok (object_trait (im k))
  end.
Definition eval_len (a : aexpr) (s : state) : res Z :=
  rmap (wrap_u 64) (in_len I n a 0 (self_ps s) (self_fs s)).

(** [context_node.children[i].context.as_mut().unwrap()]. *)
Definition in_context {A} (i : nat) (s : state) (g : dctx -> res (A * dctx)) : res (A * ctxnode) :=
  with_child i (s_ctx s) (fun c => with_ctx c g).

Definition do_line (l : line) (s : state) : res state :=
  match l with
  | LLetArray x t len packed =>
      do tr <- element_trait t s ;
      do k <- match len with Some a => rmap Some (eval_len a s) | None => Ok None end ;
      Ok (bind_var x (VArray (mkArr tr packed k)) s)
  | LArrayWrite x p off =>
      do a <- var_array s x ; do v <- at_spot s p ; do l <- list_of v ;
      do w <- array_write E a off l (s_out s) ; Ok (set_out w s)
  | LArraySize x p off =>
      do a <- var_array s x ; do v <- at_spot s p ; do l <- list_of v ;
      do z <- array_bitsize a off l (s_end s) ; Ok (set_end (s_end s + z) s)
  | LArrayLength y x =>
      do a <- var_array s x ; do (z, r) <- array_read_length a (s_in s) ;
      Ok (bind_var y (VNum z) (set_in r s))
  | LArrayRead x t p y off =>
      do a <- var_array s x ; do z <- var_num s y ;
      do (l, r) <- array_read a off (fun _ => item_default im (lower_type I defs n true t)) z (s_in s) ;
      set_spot (set_in r s) p (VArr l)
  | LClear p => set_spot s p (VArr [])
  | LReserve p y => do _ <- var_num s y ; Ok s
  | LLetContext c x =>
      do a <- var_array s x ; do k <- at_create (a_trait a) ; Ok (bind_var c (VNode k) s)
  | LReadOne x c item off =>
      do a <- var_array s x ; do k <- var_node s c ; do v <- var_value s item ;
      do (vk, r) <- read_one_element a off k v (s_in s) ;
      let (v, k) := (vk : value * ctxnode) in
      do s <- set_var item (VVal v) (set_in r s) ; set_var c (VNode k) s
  | LPush p item =>
      do v <- at_spot s p ; do l <- list_of v ; do x <- var_value s item ;
      set_spot s p (VArr (l ++ [x])%list)
  | LWriteBool b => do w <- bw_bool b (s_out s) ; Ok (set_out w s)
  | LAlignWriter k => do w <- align_writer k (s_out s) ; Ok (set_out w s)
  | LAssertArg p k q =>
      do e <- decl k ; do o <- at_spot s p ; do v <- member_of e o (it_name q) ;
      do x <- arg_value s q ;
      if rust_eq v x then Ok s else Panic
  | LAssertLen p a =>
      do v <- at_spot s p ; do l <- list_of v ; do k <- eval_len a s ;
      if zlen l =? k then Ok s else Panic
  | LWriteObj p k =>
      do v <- at_spot s p ; do (_, w) <- oi_write (im k) false no_ctx v (s_out s) ; Ok (set_out w s)
  | LWriteObjPacked p k i =>
      do v <- at_spot s p ;
      do (w, c) <- with_child i (s_ctx s)
                     (fun c => do (c, w) <- oi_write (im k) true c v (s_out s) ; Ok (w, c)) ;
      Ok (set_ctx c (set_out w s))
  | LWriteCall t p =>
      do b <- scalar_of false t ; do v <- at_spot s p ; do m <- bits_of_type b s ;
      do w <- scalar_write E b m v (s_out s) ; Ok (set_out w s)
  | LWriteCtx i t p =>
      do b <- scalar_of false t ; do v <- at_spot s p ;
      do (w, c) <- in_context i s (fun x =>
        do m <- bits_of_type b s ;
        do (x, w) <- dctx_write E (bty_ops E b m) x v (s_out s) ; Ok (w, x)) ;
      Ok (set_ctx c (set_out w s))
  | LAddAlign k => do z <- align_bitsize (s_end s) k ; Ok (set_end (s_end s + z) s)
  | LAddOne => Ok (set_end (s_end s + 1) s)
  | LAddObj p k =>
      do v <- at_spot s p ; do (z, _) <- unwrap (oi_bitsize (im k) false no_ctx v (s_end s)) ;
      Ok (set_end (s_end s + z) s)
  | LAddObjPacked p k i =>
      do v <- at_spot s p ;
      do (z, c) <- with_child i (s_ctx s) (fun c => unwrap (oi_bitsize (im k) true c v (s_end s))) ;
      Ok (set_ctx c (set_end (s_end s + z) s))
  | LAddCall t p =>
      do b <- scalar_of false t ; do v <- at_spot s p ; do z <- scalar_bitsize E b v ;
      Ok (set_end (s_end s + z) s)
  | LAddCtx i t p =>
      do b <- scalar_of false t ; do v <- at_spot s p ;
      do (z, c) <- in_context i s (fun x =>
        do m <- bits_of_type b s ; dctx_bitsize (bty_ops E b m) x v) ;
      Ok (set_ctx c (set_end (s_end s + z) s))
  | LAlignReader k => do r <- align_reader k (s_in s) ; Ok (set_in r s)
  | LLetPresent => do (b, r) <- br_bool (s_in s) ; Ok (bind_var "present" (VFlag b) (set_in r s))
  | LLetDefault x arr t =>
      do v <- (if arr then Ok (VArr []) else item_default im (lower_type I defs n false t)) ;
      Ok (bind_var x (VVal v) s)
  | LLetLiteral x k l rest => do v <- literal s k l rest ; Ok (bind_var x (VVal v) s)
  | LSetItem x k q =>
      do e <- decl k ; do v <- var_value s x ; do y <- arg_value s q ;
      do v <- set_member e v (it_name q) y ; set_var x (VVal v) s
  | LAssign p x => do v <- var_value s x ; set_spot s p v
  | LReadObj p k =>
      do v <- at_spot s p ; do (vc, r) <- oi_read (im k) false no_ctx v (s_in s) ;
      let (v, _) := (vc : value * ctxnode) in set_spot (set_in r s) p v
  | LReadObjPacked p k i =>
      do v <- at_spot s p ;
      do (vr, c) <- with_child i (s_ctx s) (fun c =>
        do (vc, r) <- oi_read (im k) true c v (s_in s) ;
        let (v, c) := (vc : value * ctxnode) in Ok ((v, r), c)) ;
      let (v, r) := (vr : value * reader) in set_spot (set_ctx c (set_in r s)) p v
  | LReadCall g t =>
      do b <- scalar_of false t ; do m <- bits_of_type b s ;
      do (v, r) <- scalar_read E b m (s_in s) ;
      match g with
      | ToSpot p => set_spot (set_in r s) p v
      | ToLet x => Ok (bind_var x (VVal v) (set_in r s))
      end
  | LReadCtx i t p =>
      do b <- scalar_of false t ;
      do (vr, c) <- in_context i s (fun x =>
        do m <- bits_of_type b s ;
        do (vd, r) <- dctx_read (e_build E) (bty_ops E b m) x (s_in s) ;
        let (v, x) := (vd : value * dctx) in Ok ((v, r), x)) ;
      let (v, r) := (vr : value * reader) in set_spot (set_ctx c (set_in r s)) p v
  | LStore m => do v <- var_value s "optional_value" ; set_spot s (OnMember m) (VSome v)
  | LLetNode x => Ok (bind_var x (VNode no_ctx) s)
  | LCreateNode k x => do c <- var_node s x ; do c <- oi_create (im k) c ; set_var x (VNode c) s
  | LNodeContext x =>
      do c <- var_node s x ;
      match c with Node _ l => set_var x (VNode (Node (Some dctx_new) l)) s end
  | LPushNode x => do c <- var_node s x ; Ok (set_ctx (push_child (s_ctx s) c) s)
  | LInitObj p k i =>
      do v <- at_spot s p ;
      do (_, c) <- with_child i (s_ctx s) (fun c => do c <- oi_init (im k) c v ; Ok (tt, c)) ;
      Ok (set_ctx c s)
  | LInitCtx i t p =>
      do b <- scalar_of false t ; do v <- at_spot s p ;
      do (_, c) <- in_context i s (fun x =>
        do m <- bits_of_type b s ; do x <- dctx_init (bty_ops E b m) x v ; Ok (tt, x)) ;
      Ok (set_ctx c s)
  | LWriteSelector =>
      match s_self s with
      | VObj k _ _ => do w <- write_varsize E (wrap_u 32 k) (s_out s) ; Ok (set_out w s)
      | _ => Panic
      end
  | LReadSelector =>
      match s_self s with
      | VObj _ ps fs =>
          do (k, r) <- read_varsize (s_in s) ;
          (* [zunion.rs:71-85] from_u32 *)
          if k <? zlen (sdef_fields d) then Ok (set_self (VObj k ps fs) (set_in r s)) else Panic
      | _ => Panic
      end
  | LAddSelector =>
      match s_self s with
      | VObj k _ _ => do z <- varsize_bitsize (wrap_u 32 k) ; Ok (set_end (s_end s + z) s)
      | _ => Panic
      end
  | LLetZero => Ok (bind_var "v" (VVal (VInt 0)) s)
  | LTryFrom =>
      do v <- var_value s "v" ;
      do z <- need (prj_int v) (fun z => Ok (wrap_s 64 z)) ;
      do e <- match d with SEnum _ _ items => M_Gen.enum_try_from items z | _ => Panic end ;
      Ok (set_self e s)
  | LSetBits => do v <- var_value s "v" ; Ok (set_self v s)
  | LSelfContext => match s_ctx s with Node _ l => Ok (set_ctx (Node (Some dctx_new) l) s) end
  | LPushDelta => Ok (set_ctx (push_child (s_ctx s) (Node (Some dctx_new) [])) s)
  | LLetEnd => Ok (set_end (s_start s) s)
  | LOk => Ok (set_ret 0 s)
  | LSize => Ok (set_ret (s_end s - s_start s) s)
  | _ => Panic
  end.

(** Whether an arm is taken: by the value of the selector, or by the union's variant;
    variants are numbered in the order of the fields ([zunion.rs:42-54]). *)
Definition takes (sel : Z) (a : line) : bool :=
  match a with
  | LArm es => existsb (Z.eqb sel) (flat_map (in_label I n) es)
  | LArmParen | LArmUnit => true
  | _ => false
  end.
Definition takes_variant (sel : Z) (a : line) : bool :=
  match a with
  | LArmVariant m => match find_name m (sdef_fields d) 0 with
                     | Some (i, _) => Nat.eqb i (Z.to_nat sel)
                     | None => false
                     end
  | _ => false
  end.

Fixpoint for_each (body : state -> res state) (l : list (list (string * lvar))) (s : state) : res state :=
  match l with
  | [] => Ok s
  | vs :: t => do s' <- body (set_vars (vs ++ s_vars s)%list s) ; for_each body t (leave s s')
  end.
Fixpoint count (k : nat) (i : Z) : list Z :=
  match k with O => [] | S k => i :: count k (i + 1) end.
Fixpoint enumerate (l : list value) (i : Z) : list (list (string * lvar)) :=
  match l with
  | [] => []
  | v :: t => [("element", VVal v); ("param_index", VNum i)] :: enumerate t (i + 1)
  end.

Fixpoint exec (st : stmt) (s : state) {struct st} : res state :=
  let fix run (l : list stmt) (s : state) {struct l} : res state :=
    match l with
    | [] => Ok s
    | a :: t => do s <- exec a s ; run t s
    end in
  let block l s := do s' <- run l s ; Ok (leave s s') in
  let otherwise e s := match e with Some l => block l s | None => Ok s end in
  match st with
  | Do l => do_line l s
  | Block h b e =>
      match h with
      | LIf a => do c <- in_cond I n a 0 (self_ps s) (self_fs s) ; if c then block b s else otherwise e s
      | LOpen => block b s
      | LIfSome p =>
          do v <- at_spot s p ;
          match v with
          | VSome x => do s' <- run b (bind_var "x" (VVal x) s) ; Ok (leave s s')
          | VNone => otherwise e s
          | _ => Panic
          end
      | LIfPresent => do c <- var_flag s "present" ; if c then block b s else otherwise e s
      | LForIndex p => do v <- at_spot s p ; do l <- list_of v ; for_each (run b) (enumerate l 0) s
      | LForIn p =>
          do v <- at_spot s p ; do l <- list_of v ;
          for_each (run b) (map (fun x => [("element", VVal x)]) l) s
      | LForRange y =>
          do z <- var_num s y ;
          for_each (run b) (map (fun i => [("param_index", VNum i)]) (count (Z.to_nat z) 0)) s
      | _ => Panic
      end
  | Cases h arms =>
      let fix pick (test : line -> bool) (l : list (line * list stmt)) {struct l} : res state :=
        match l with
        | [] => Panic
        | (a, b) :: t => if test a then block b s else pick test t
        end in
      match h with
      | LMatch sel => do z <- in_sel I n sel 0 (self_ps s) (self_fs s) ; pick (takes z) arms
      | LMatchUnion =>
          match s_self s with VObj z _ _ => pick (takes_variant z) arms | _ => Panic end
      | _ => Panic
      end
  end.
Fixpoint run (l : list stmt) (s : state) : res state :=
  match l with
  | [] => Ok s
  | a :: t => do s <- exec a s ; run t s
  end.

(** A call of a function with these lines as its body; a body that is not a sequence of
    statements is not Rust. *)
Definition call (ls : list line) (s : state) : res state :=
  match parse_body ls with Some b => run b s | None => Panic end.
(** The result of a function that returns one. *)
Definition result (s : state) : res Z := match s_ret s with Some z => Ok z | None => Panic end.

Definition start (v : value) (c : ctxnode) (w : writer) (r : reader) (pos : Z) : state :=
  State v [] c w r pos 0 None.
Definition no_reader : reader := mkR 0 [].

(** [packed_contexts.rs:47-69], [types.rs:30-43] and [#[derive(Default)]]: the Rust types of the
    members and their default values. *)
Inductive mtype := MOption (t : mtype) | MVec (t : mtype) | MRaw (t : stype).
Definition member_rust (f : sfield) : mtype :=
  let t := match sf_array f with Some _ => MVec (MRaw (sf_ty f)) | None => MRaw (sf_ty f) end in
  if sf_optional f then MOption t else t.
Definition type_default (t : mtype) : res value :=
  match t with
  | MOption _ => Ok VNone
  | MVec _ => Ok (VArr [])
  | MRaw t => item_default im (lower_type I defs n false t)
  end.
Fixpoint member_defaults (l : list sfield) : res (list value) :=
  match l with
  | [] => Ok []
  | f :: t => do v <- type_default (member_rust f) ; do r <- member_defaults t ; Ok (v :: r)
  end.
(** [zenum.rs:54-58] [#[default]] on the first item; [zbitmask.rs:36-60]. *)
Definition code_default : res value :=
  match d with
  | SEnum _ _ l | SMask _ _ l => match l with [] => Panic | x :: _ => Ok (VInt x) end
  | _ =>
      do ps <- member_defaults (sdef_params d) ;
      do fs <- member_defaults (sdef_fields d) ;
      Ok (VObj 0 ps fs)
  end.

(** The functions of a generated type. *)
Definition code_impl : obj_impl :=
  mkImpl
    code_default
    (fun packed c v w =>
       do s <- call (write_body defs d packed) (start v c w no_reader 0) ;
       do _ <- result s ; Ok (s_ctx s, s_out s))
    (fun packed c v r =>
       do s <- call (read_body defs d packed) (start v c [] r 0) ;
       do _ <- result s ; Ok (s_self s, s_ctx s, s_in s))
    (fun packed c v pos =>
       do s <- call (size_body d packed) (start v c [] no_reader pos) ;
       do z <- result s ; Ok (z, s_ctx s))
    (fun c => do s <- call (create_body d) (start VNone c [] no_reader 0) ; Ok (s_ctx s))
    (fun c v =>
       do s <- call (init_body d) (start v c [] no_reader 0) ;
       do _ <- result s ; Ok (s_ctx s)).
End Run.

(** All types of a package, calling each other; the depth of calls is bounded. *)
Fixpoint code_at (E : env) (I : interp) (defs : list sdef) (fuel n : nat) : obj_impl :=
  match fuel with
  | O => dead_impl (fun A => NoFuel)
  | S g =>
    match nth_error defs n with
    | Some d => code_impl E (code_at E I defs g) I defs n d
    | None => dead_impl (fun A => Panic)
    end
  end.
