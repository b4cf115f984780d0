(** Property C68: the syntax tree says what the schema file says. *)
From Coq Require Import ZArith List Bool String Ascii.
From Verif Require Import M_Base M_Expr M_Scope M_Templ M_Pkg M_Lit M_Visit S_Lit S_Visit P_Visit P_Visit2 P_Visit4.
Import ListNotations.
Open Scope string_scope.
Open Scope list_scope.

(** The syntax tree of a declaration, written down again, is the text of the declaration
    without what the compiler ignores. *)
Theorem C68_text : forall d l, formed d -> known d = true -> visit_decl d = Ok l ->
  exists z, l = [RStr; RDecl z] /\ show_decl z = decl_text (kept d) /\ zdecl_key z = key d.
Proof. exact (fun d l F K E => decl_shown d l F E K). Qed.
Print Assumptions C68_text.

(** What the compiler ignores makes no difference. *)
Theorem C68_kept : forall d, formed d -> visit_decl (kept d) = visit_decl d.
Proof. exact decl_kept. Qed.
Print Assumptions C68_kept.

(** A declaration is accepted exactly if its literals, widths and alignments can be read;
    otherwise the compiler aborts. *)
Theorem C68_accepted : forall d, formed d ->
  (readable (kept d) /\ exists l, visit_decl d = Ok l) \/ (~ readable (kept d) /\ visit_decl d = Panic).
Proof. exact decl_accepts. Qed.
Print Assumptions C68_accepted.

(** An expression is taken for the one its parse tree is. *)
Theorem C68_expression : forall t e, expr_formed t ->
  (says t e /\ expr_readable t <-> exists n, visit_expr t = Ok n /\ read n = Some e).
Proof.
  intros t e F. split.
  - intros [S R]. exact (says_expr t e S R).
  - intros (n & V & R). destruct (expr_says t n F V) as (e' & R' & S). rewrite R in R'. injection R' as <-.
    split; [exact S|]. destruct (expr_accepts t F) as [[H _]|[_ E]]; [exact H|]. rewrite V in E. discriminate E.
Qed.
Print Assumptions C68_expression.
(** The types noted for literals beforehand are those of their evaluation. *)
Theorem C68_literal : forall b fuel S k s n e r, visit_expr (PLit k s) = Ok n -> read n = Some e ->
  eval b fuel S e = Ok r -> match n with Node _ _ _ _ _ _ _ nt done => done = e_full r /\ nt = e_nt r end.
Proof. exact literal_noted. Qed.
Print Assumptions C68_literal.

(** A file becomes a package with its declarations, in order, and its imports; other
    directives are ignored. *)
Theorem C68_file : forall f nm p imps, file_formed f -> visit_file f = Ok (nm, (p, imps)) ->
  exists ids zs, pl_package f = Some ids /\ nm = String.concat "." ids
  /\ p = visit_package (map (fun z => (zdecl_key z, z)) zs)
  /\ Forall2 (fun d z => show_decl z = decl_text (kept d) /\ zdecl_key z = key d) (filter known (pl_decls f)) zs
  /\ Forall2 import_is (pl_imports f) imps.
Proof. exact file_visited. Qed.
Print Assumptions C68_file.
(** It is accepted exactly if it names its package and all its directives can be read. *)
Theorem C68_file_accepted : forall f, file_formed f ->
  (((exists ids, pl_package f = Some ids) /\ Forall readable (map kept (pl_decls f))) /\ exists r, visit_file f = Ok r)
  \/ (~ ((exists ids, pl_package f = Some ids) /\ Forall readable (map kept (pl_decls f))) /\ visit_file f = Panic).
Proof. exact file_accepts. Qed.
Print Assumptions C68_file_accepted.

(** A struct with an alignment, an offset, a packed array whose length is an expression, a
    width, a condition with the shift of two tokens, template and type arguments, [extend]
    and [explicit], and a function. *)
Definition v_struct : pdecl :=
  PStruct "Item" ["T"] [PParam (PBuiltin "uint8" None) "n"]
    [ PField (Some (PLit TkDec "8")) (Some (PId "off")) false false
        (PMember true false (PInst (PName ["geo"; "Box"] [PName ["T"] []; PBuiltin "int" (Some "12")]) PNone) "boxes"
           (Some (Some (PBin BMinus (PId "n") (PLit TkHex "0x1f"))))) None None None;
      PField (Some (PLit TkDec "0")) None true true
        (PMember true false (PInst (PName ["Row"] []) (PArgs [PExplicit "n"; PArg (PUn UMinus (PDot (PId "a") "b"))])) "row" None)
        None (Some (PBin BShr (PId "n") (PLit TkDec "2"))) None;
      PField None None false false
        (PMember false false (PInst (PBuiltin "bit" None) (PLength (PId "n"))) "rest" None)
        (Some (PLit TkOct "017")) None (Some (PBin BGt (PId "rest") (PLit TkBin "101b"))) ]
    [PFun (PBuiltin "bool" None) "ok" (PTern (PIsset (PId "n") (PId "m")) (PLit TkBool "true") (PCall (PId "f")))].
Definition v_file : pfile :=
  PFile (Some "1.0") (Some ["map"; "core"]) [(["geo"; "Box"], false); (["base"], true)]
    [POther (PService "Find" [PMethod (PName ["T"] []) "get" (PBuiltin "uint8" None)]); v_struct; PSubtype (PBuiltin "bit" (Some "0")) "Bit"].

Lemma v_dec : forall s, s <> "" -> all_digits 10 s = true -> s = "0" \/ (forall tl, s <> String "0"%char tl) ->
  denotes TkDec s (numeral 10 s).
Proof. intros s N A C. apply DnDec; [split; assumption|exact C]. Qed.
Ltac v_token :=
  repeat match goal with
  | |- token (fst _) _ => cbn [fst snd]
  | |- Forall _ _ => constructor
  | |- token TkDec _ => eapply TokInt; apply v_dec; [discriminate|reflexivity|first [left; reflexivity|right; discriminate]]
  | |- token TkHex _ => eapply TokInt; apply DnHex; [left; reflexivity|split; [discriminate|reflexivity]]
  | |- token TkOct _ => eapply TokInt; apply DnOct; split; [discriminate|reflexivity]
  | |- token TkBin _ => eapply TokInt; apply (DnBin "b"%char "101"); [left; reflexivity|split; [discriminate|reflexivity]]
  | |- token TkBool _ => apply TokBool; left; reflexivity
  | |- expr_formed _ => unfold expr_formed; cbn
  end.
Ltac v_type :=
  repeat match goal with
  | |- Forall _ _ => constructor
  | |- inst_formed _ => split; cbn; [|discriminate]
  | |- type_formed (PBuiltin _ None) => apply TfBuiltin; cbn; tauto
  | |- type_formed (PBuiltin _ (Some _)) =>
      eapply TfWidth; [tauto|apply v_dec; [discriminate|reflexivity|first [left; reflexivity|right; discriminate]]]
  | |- type_formed (PName _ _) => apply TfName; [discriminate| |]
  | |- identifier _ => split; [discriminate|reflexivity]
  end.
Example C68_case : formed v_struct /\ file_formed v_file
  /\ visit_decl v_struct <> Panic /\ known v_struct = true
  /\ decl_text (kept v_struct)
     = ["struct"; "Item"; "<"; "T"; ">"; "("; "uint8"; "n"; ")"; "{";
        "align"; "("; "8"; ")"; ":"; "off"; ":"; "packed"; "geo.Box"; "<"; "T"; ","; "int"; ":"; "12"; ">"; "boxes";
        "["; "n"; "-"; "0x1f"; "]"; ";";
        "optional"; "Row"; "("; "n"; ","; "-"; "a"; "."; "b"; ")"; "row"; "if"; "n"; ">"; ">"; "2"; ";";
        "bit"; "<"; "n"; ">"; "rest"; "="; "017"; ":"; "rest"; ">"; "101b"; ";";
        "function"; "bool"; "ok"; "("; ")"; "{"; "return"; "isset"; "("; "n"; ","; "m"; ")"; "?"; "true"; ":"; "f";
        "("; ")"; ";"; "}"; "}"; ";"]
  /\ (exists r, visit_file v_file = Ok ("map.core", r) /\ snd r = [(["geo"], Some "Box"); (["base"], None)]).
Proof.
  assert (F : formed v_struct).
  { repeat split; cbn; v_token; v_type. }
  assert (G : file_formed v_file).
  { split; cbn; [|repeat constructor; discriminate]. constructor; [|constructor; [exact F|constructor; [|constructor]]].
    - repeat split; cbn; v_token; v_type.
    - repeat split; cbn; v_token; v_type. }
  split; [exact F|]. split; [exact G|]. split; [vm_compute; discriminate|]. split; [reflexivity|]. split; [reflexivity|].
  eexists. split; [vm_compute; reflexivity|reflexivity].
Qed.
Example C68_expression_case :
  says (PBin BShr (PUn UMinus (PId "n")) (PLit TkHex "0x1f")) (EBin BShr (EUn UMinus (EId "n")) (ELit (LInt 31)))
  /\ expr_readable (PBin BShr (PUn UMinus (PId "n")) (PLit TkHex "0x1f")).
Proof.
  assert (D : denotes TkHex "0x1f" 31) by (apply (DnHex "x"%char "1f"); [now left|split; [discriminate|reflexivity]]).
  split; [apply SaBin; [apply SaUn; apply SaId|apply SaLit; apply LiInt; exact D]|].
  constructor; [|constructor]. cbn. exists 31%Z. split; [exact D|]. split; [reflexivity|].
  intros C. inversion C.
Qed.

(** The grammar lets a file omit the name of its package; the compiler aborts on such a
    file. *)
Theorem C68_nameless_refuted : forall f, pl_package f = None -> visit_file f = Panic.
Proof. intros f E. unfold visit_file. rewrite E. reflexivity. Qed.
Print Assumptions C68_nameless_refuted.
(** A literal that cannot be read makes the compiler abort even in a directive it ignores. *)
Theorem C68_ignored_refuted : formed (POther (PRules "Limits" [PLit TkFloat "1.5f"]))
  /\ visit_decl (POther (PRules "Limits" [PLit TkFloat "1.5f"])) = Panic.
Proof.
  split; [|reflexivity]. repeat split; cbn; repeat constructor.
  apply (FlSuffix "1.5" 15 (-1) "f"%char); [|now left].
  apply (DbPoint "1" "5" "" 0); [split; [discriminate|reflexivity]|reflexivity|constructor].
Qed.
Print Assumptions C68_ignored_refuted.
