(** Property C79: the fields that offsets are kept in. *)
From Coq Require Import ZArith List Bool String.
From Verif Require Import M_Base M_Bits M_Gen M_Expr M_Scope M_Templ M_Pkg M_Lit M_Link M_Print M_Comp M_Whole M_Offset M_Lex M_Text.
From Verif Require Import S_Base S_Array S_Gen S_Wire S_Expr S_Lit S_Print S_Rust S_Rust2 S_Pkg S_Link S_Comp S_Whole S_Calc S_Lex S_Text.
From Verif Require Import M_Visit S_Visit S_Tree S_Offset X_Offset.
From Verif Require P_Text2 P_Calc P_Offset P_Offset2.
Import ListNotations.
Open Scope Z_scope.

(** After the evaluation of the files, the fields that are offset fields are those that an
    offset of some field of some structure refers to. *)
Theorem C79_marked : forall files, Forall file_simple files -> well_formed (declared files) ->
  forall o src cb fuel ast marks, (forall p, some_order (o p)) -> well_formed src ->
  load files = Ok ast -> offsets_fine files src -> offset_marks cb fuel (link o (parsed src)) ast = Ok marks ->
  forall x, In x marks <-> holds_offset files src x.
Proof. exact P_Offset.marks_iff. Qed.
Print Assumptions C79_marked.

(** The offset [e] of the field [own] is accepted when it is a path to a field and [own] is
    not on it; the field at its end is then an offset field. *)
Theorem C79_accepted : forall o src, (forall p, some_order (o p)) -> well_formed src ->
  forall p here own e x t q, unambiguous src p -> In p (map fst src) -> refers src p here e x ->
  S_Link.path src p here e (SyField t) q -> has_type src q (SyField t) ->
  (forall y, crosses src p here e y -> y <> own) ->
  eventually (fun f => forall cb, mark_offset cb f (link o (parsed src)) p here own e = Ok x).
Proof. exact P_Offset2.accepted. Qed.
Print Assumptions C79_accepted.

(** So is one with an index behind the path, when the field has an integer type. *)
Theorem C79_indexed : forall o src, (forall p, some_order (o p)) -> well_formed src ->
  forall p here own a x t q, unambiguous src p -> In p (map fst src) -> refers src p here a x ->
  S_Link.path src p here a (SyField t) q -> integer_type src q t ->
  (forall y, crosses src p here a y -> y <> own) ->
  eventually (fun f => forall cb, mark_offset cb f (link o (parsed src)) p here own (EElem a EIndex) = Ok x).
Proof. exact P_Offset2.accepted_index. Qed.
Print Assumptions C79_indexed.

(** An offset that is no field aborts the compiler: a parameter, a constant, a function. *)
Theorem C79_refused : forall o src, (forall p, some_order (o p)) -> well_formed src ->
  forall p here own e s q, unambiguous src p -> In p (map fst src) ->
  S_Link.path src p here e s q -> has_type src q s -> (forall t, s <> SyField t) ->
  eventually (fun f => forall cb, mark_offset cb f (link o (parsed src)) p here own e = Panic).
Proof. exact P_Offset2.refused. Qed.
Print Assumptions C79_refused.

(** So does a field in parentheses. *)
Theorem C79_refused_parentheses : forall o src, (forall p, some_order (o p)) -> well_formed src ->
  forall p here own e s q, unambiguous src p -> In p (map fst src) ->
  S_Link.path src p here e s q -> has_type src q s ->
  eventually (fun f => forall cb, mark_offset cb f (link o (parsed src)) p here own (EParen e) = Panic).
Proof. exact P_Offset2.refused_paren. Qed.
Print Assumptions C79_refused_parentheses.

(** So does a path on which the field itself is. *)
Theorem C79_refused_own : forall o src, (forall p, some_order (o p)) -> well_formed src ->
  forall p here own e s q, unambiguous src p -> In p (map fst src) -> crosses src p here e own ->
  S_Link.path src p here e s q -> has_type src q s ->
  eventually (fun f => forall cb, mark_offset cb f (link o (parsed src)) p here own e = Panic).
Proof. exact P_Offset2.refused_own. Qed.
Print Assumptions C79_refused_own.

(** The schema of X_Offset: the marked fields; the hypotheses of C74 hold of its texts and of
    a value, whose fields with offsets start at the bytes 18, 20, 22 and 23. *)
Example C79_case :
  read_files [("app.zs", g_app_text); ("geo.zs", g_geo_text)]%string = M_Parse.Parsed g_files
  /\ (forall p, some_order (g_order p)) /\ written g_texts g_files /\ Forall (fun f => Forall simple (pl_decls (snd f))) g_files
  /\ Forall file_simple g_files /\ load g_files = Ok g_ast
  /\ well_formed (declared g_files) /\ load_texts g_texts = M_Parse.Parsed (Ok g_ast)
  /\ placed_sources (declared g_files) g_src /\ is_schema g_src g_home g_pkg /\ scoped g_src g_home g_pkg g_order 5
  /\ offsets_fine g_files g_src /\ offset_marks Debug 5 (link g_order (parsed g_src)) g_ast = Ok g_marks
  /\ describes g_files g_src g_home g_pkg /\ selectors_fine Debug 5 g_pkg /\ fine Debug 5 g_pkg /\ lawful Debug 5 g_pkg g_meaning
  /\ (forall dbg, exists ts, wire (schema_of g_meaning (pk_defs g_pkg)) dbg false 1 g_value ts
        /\ close_bits (bits_at 0 ts) = g_bytes)
  /\ forall E, top_value E (schema_of g_meaning (pk_defs g_pkg)) 1 g_value.
Proof.
  split; [exact g_parsed|]. split; [exact g_some_order|]. split; [exact g_written|]. split; [exact g_simple|].
  split; [exact g_files_simple|]. split; [exact g_load|].
  split; [exact g_declared_wf|]. split; [rewrite (P_Text2.load_written _ _ g_written), g_load; reflexivity|].
  split; [exact g_placed|]. split; [exact g_is_schema|]. split; [exact g_scoped|]. split; [exact g_offsets|].
  split; [exact (g_offset_marks Debug)|]. split; [exact g_describes|]. split; [exact g_selectors|].
  split; [exact (g_fine Debug)|]. split; [exact (P_Calc.calc_lawful Debug 5 g_pkg)|].
  rewrite <- g_sch_is. split; [exact g_value_wire|exact g_value_top].
Qed.
(** Paths of this schema. *)
Example C79_accepted_case :
  unambiguous g_src "app" /\ In "app"%string (map fst g_src)
  /\ refers g_src "app" "Main" (EDot (EId "head") "at") ("geo", "Head", "at")%string
  /\ S_Link.path g_src "app" "Main" (EDot (EId "head") "at") (SyField (native "uint32")) "geo"
  /\ has_type g_src "geo" (SyField (native "uint32"))
  /\ (forall y, crosses g_src "app" "Main" (EDot (EId "head") "at") y -> y <> ("app", "Main", "y")%string)
  /\ refers g_src "app" "Main" (EId "offs") ("app", "Main", "offs")%string
  /\ S_Link.path g_src "app" "Main" (EId "offs") (SyField (native "uint32")) "app"
  /\ integer_type g_src "app" (native "uint32")
  /\ (forall y, crosses g_src "app" "Main" (EId "offs") y -> y <> ("app", "Main", "data")%string)
  /\ crosses g_src "app" "Main" (EDot (EId "head") "at") ("app", "Main", "head")%string.
Proof. exact g_paths. Qed.
(** A declaration is no field. *)
Example C79_refused_case :
  S_Link.path g_src "app" "Main" (EId "Head") SyCompound "geo" /\ has_type g_src "geo" SyCompound
  /\ (forall t, SyCompound <> SyField t).
Proof. exact g_no_field. Qed.
