(** Properties C64 and C65: names and types across the files of a schema. *)
From Coq Require Import ZArith List Bool String Lia.
From Coq Require Import Sorting.Permutation.
From Verif Require Import M_Base M_Expr M_Scope M_Templ M_Pkg M_Link S_Expr S_Pkg S_Link P_Link.
Import ListNotations.
Open Scope string_scope.

(** ** C64 *)

(** Every name and every access path [a.b.c] inside a declaration is evaluated as what
    was declared under it: members of the declaration first, then the declarations of
    all packages in sight; its type is the one it was declared with, through subtypes of
    any package. *)
Theorem C64_path : forall o src p here e s q, (forall r, some_order (o r)) -> well_formed src ->
  unambiguous src p -> In p (map fst src) -> path src p here e s q -> has_type src q s ->
  eventually (fun fuel => forall b, exists r,
    eval b fuel (scope_at fuel (link o (parsed src)) p (Some here)) e = Ok r
    /\ e_sym r = Some s /\ typed src q s r).
Proof. exact (fun o src p here e s q O W U I H T => proj2 (path_typed o src O W p here e s q U H I) T). Qed.
Print Assumptions C64_path.

(** The items of enums and bitmasks are integers. *)
Theorem C64_item : forall o src p here e s q m, (forall r, some_order (o r)) -> well_formed src ->
  unambiguous src p -> In p (map fst src) -> path src p here e s q ->
  (exists l t, s = SyEnum l t /\ In m l) \/ (exists l t, s = SyBitmask l t /\ In m l) ->
  eventually (fun fuel => forall b, exists r,
    eval b fuel (scope_at fuel (link o (parsed src)) p (Some here)) (EDot e m) = Ok r
    /\ holds (e_rt r) = Some CI).
Proof. exact (fun o src p here e s q m O W U I H => item_typed o src O W p here e s q m U H I). Qed.
Print Assumptions C64_item.

(** A schema of two packages. *)
Definition ref (p n : string) : tref := TRef false p n 0 false.
Definition x_geo : list (sdecl body) :=
  [(KdSubtype, "Len", BSubtype (native "uint16"));
   (KdStruct, "Box", BCompound false [] [("w", native "uint8"); ("h", ref "geo" "Len")] []);
   (KdUnion, "Shape", BCompound false [] [("box", ref "geo" "Box"); ("flat", native "uint8")] []);
   (KdEnum, "Color", BEnum ["RED"; "BLUE"] (native "uint8"))].
Definition x_app : list (sdecl body) :=
  [(KdSubtype, "Frame", BSubtype (ref "geo" "Box"));
   (KdStruct, "Scene",
     BCompound false [("w", native "bool")] [("b", ref "app" "Frame"); ("s", ref "geo" "Shape")] [])].
Definition x_src : sources := [("app", (x_app, [("geo", None)])); ("geo", (x_geo, []))].

Lemma x_wf : well_formed x_src.
Proof.
  constructor.
  - cbn. repeat constructor; cbn; intuition discriminate.
  - intros p ds i [I|[I|[]]]; injection I as <- <- <-; cbn; repeat constructor; cbn; intuition discriminate.
  - intros p k n x (ds & i & [I|[I|[]]] & J & _); injection I as <- <- <-; cbn in J;
      repeat (destruct J as [J|J]; [injection J as <- <- <-; cbn; repeat constructor; cbn; intuition discriminate|]);
      destruct J.
  - intros p k n x (ds & i & [I|[I|[]]] & J & _); injection I as <- <- <-; cbn in J;
      repeat (destruct J as [J|J]; [injection J as <- <- <-; cbn; split; [exact Logic.I|discriminate]|]);
      destruct J.
  - intros p q (ds & i & sel & [I|[I|[]]] & J); injection I as <- <- <-; cbn in J |- *;
      [destruct J as [J|[]]; injection J as <- <-; auto|destruct J].
Qed.
Lemma x_unambiguous : unambiguous x_src "app".
Proof.
  intros q q' k k' n x x' _ _ (ds & i & [I|[I|[]]] & J & _) (ds' & i' & [I'|[I'|[]]] & J' & _);
    injection I as <- <- <-; injection I' as <- <- <-; try reflexivity; cbn in J, J'; exfalso;
    repeat (destruct J as [J|J]; [injection J as <- <- <-|]); try destruct J;
    repeat (destruct J' as [J'|J']; [discriminate J'|]); destruct J'.
Qed.
Lemma x_sees : sees x_src "app" "geo".
Proof. econstructor; [constructor|]. exists x_app, [("geo", None)], None. cbn. auto. Qed.
Lemma x_decl p k n x ds i : In (p, (ds, i)) x_src -> In (k, n, x) ds -> introduces k = true ->
  declares x_src p k n x.
Proof. intros. exists ds, i. auto. Qed.
Lemma x_box : means x_src "app" (ref "app" "Frame")
  (Declared "geo" "Box" KdStruct
     (BCompound false [] [("w", native "uint8"); ("h", ref "geo" "Len")] [])).
Proof.
  eapply MeansSubtype; [reflexivity|constructor| |].
  - eapply (x_decl "app" KdSubtype "Frame" _ x_app); cbn; auto.
  - refine (MeansDecl x_src "app" (ref "geo" "Box") KdStruct _ eq_refl x_sees _ _); [|cbn; auto].
    eapply (x_decl "geo" KdStruct "Box" _ x_geo); cbn; auto.
Qed.
(** [b.h] in [Scene] is a 16-bit integer, through two subtypes in two packages. *)
Example C64_path_case :
  well_formed x_src /\ unambiguous x_src "app" /\ In "app" (map fst x_src)
  /\ path x_src "app" "Scene" (EDot (EId "b") "h") (SyField (ref "geo" "Len")) "geo"
  /\ means x_src "geo" (ref "geo" "Len") (Builtin "uint16")
  /\ path x_src "app" "Scene" (EId "Color") (SyEnum ["RED"; "BLUE"] (native "uint8")) "geo".
Proof.
  split; [exact x_wf|]. split; [exact x_unambiguous|]. split; [cbn; auto|]. split; [|split].
  - refine (PathDot x_src "app" "Scene" (EId "b") true (ref "app" "Frame") "app" "Box" KdStruct _ "h" _ _
              "geo" x_box (or_introl eq_refl) _).
    + eapply (PathMember x_src "app" "Scene" KdStruct).
      * eapply (x_decl "app" KdStruct "Scene" _ x_app); cbn; auto.
      * apply MemField. cbn. auto.
    + apply MemField. cbn. auto.
  - eapply MeansSubtype; [reflexivity|constructor| |].
    + eapply (x_decl "geo" KdSubtype "Len" _ x_geo); cbn; auto.
    + exact (MeansBuiltin x_src "geo" (native "uint16") eq_refl).
  - refine (PathDecl x_src "app" "Scene" "geo" KdEnum (BEnum ["RED"; "BLUE"] (native "uint8")) "Color" _ x_sees _).
    + intros k' x' s' (ds & i & [I|[I|[]]] & J & _) Hm; [|discriminate I]; injection I as <- <-; cbn in J.
      destruct J as [J|[J|[]]]; [discriminate J|]. injection J as <- <-.
      inversion Hm; subst; cbn in *; intuition discriminate.
    + eapply (x_decl "geo" KdEnum "Color" _ x_geo); cbn; auto.
Qed.

(** The members of unions are not found: the program aborts, unless some other declaration
    has the name. *)
Theorem C64_union_refuted : forall o src p here e (field : bool) t q q' n x m,
  (forall r, some_order (o r)) -> well_formed src -> unambiguous src p -> In p (map fst src) ->
  path src p here e (if field then SyField t else SyParam t) q ->
  means src q t (Declared q' n KdUnion x) -> acyclic src q' ->
  (forall r k y, sees src q' r -> ~ declares src r k m y) ->
  eventually (fun fuel => forall b,
    eval b fuel (scope_at fuel (link o (parsed src)) p (Some here)) (EDot e m) = Panic).
Proof.
  exact (fun o src p here e fo t q q' n x m O W U I H Me AC NM =>
           union_member o src O W p here e fo t q q' n x m U H I Me AC NM).
Qed.
Print Assumptions C64_union_refuted.
Example C64_union_case :
  path x_src "app" "Scene" (EId "s") (SyField (ref "geo" "Shape")) "app"
  /\ means x_src "app" (ref "geo" "Shape") (Declared "geo" "Shape" KdUnion
       (BCompound false [] [("box", ref "geo" "Box"); ("flat", native "uint8")] []))
  /\ acyclic x_src "geo" /\ (forall r k y, sees x_src "geo" r -> ~ declares x_src r k "flat" y)
  /\ eval Debug 9 (scope_at 9 (link (fun _ l => l) (parsed x_src)) "app" (Some "Scene"))
       (EDot (EId "s") "flat") = Panic.
Proof.
  split; [|split; [|split; [|split]]].
  - eapply (PathMember x_src "app" "Scene" KdStruct).
    + eapply (x_decl "app" KdStruct "Scene" _ x_app); cbn; auto.
    + apply MemField. cbn. auto.
  - refine (MeansDecl x_src "app" (ref "geo" "Shape") KdUnion _ eq_refl x_sees _ _); [|cbn; auto].
    eapply (x_decl "geo" KdUnion "Shape" _ x_geo); cbn; auto.
  - exists (fun p => if String.eqb p "app" then 1%nat else 0%nat).
    intros a b _ (ds & i & sel & [I|[I|[]]] & J); injection I as <- <- <-; cbn in J.
    + destruct J as [J|[]]. injection J as <- <-. cbn. lia.
    + destruct J.
  - intros r k y _ (ds & i & [I|[I|[]]] & J & _); injection I as <- <- <-; cbn in J;
      repeat (destruct J as [J|J]; [discriminate J|]); destruct J.
  - vm_compute. reflexivity.
Qed.

(** If two packages in sight declare a type of the same name, something imported from one
    of them is evaluated with the type of the other: the constant [lib.limit], declared
    as an integer, is taken for an enum. *)
Theorem C64_capture_refuted : exists src p here q t x,
  well_formed src /\ sees src p q /\ declares src q KdConst "limit" (BConst t)
  /\ (forall q' k y, declares src q' k "limit" y -> q' = q)
  /\ means src q t (Builtin "uint16")
  /\ declares src p KdStruct here x /\ (forall s, ~ member x "limit" s)
  /\ forall o, (forall r, some_order (o r)) ->
     eventually (fun fuel => forall b, exists r,
       eval b fuel (scope_at fuel (link o (parsed src)) p (Some here)) (EId "limit") = Ok r
       /\ e_rt r = TEnum ["A"] (native "uint8")).
Proof. exact captured. Qed.
Print Assumptions C64_capture_refuted.

(** References are completed with a package in sight that declares them; nothing else
    changes, so that a schema without duplicate names stays one. *)
Theorem C64_resolved : forall o src fuel ps, (forall r, some_order (o r)) -> well_formed src ->
  resolve_types fuel (link o (parsed src)) (parsed src) = Ok ps ->
  exists src', ps = parsed src' /\ placed_sources src src' /\ well_formed src'
  /\ (forall p, unambiguous src p -> unambiguous src' p)
  /\ (unqualified src -> forall p k n x t, declares src' p k n x -> In t (references x) ->
      tr_builtin t = false ->
      exists k' y, sees src' p (tr_pkg t) /\ declares src' (tr_pkg t) k' (tr_name t) y).
Proof. exact resolution. Qed.
Print Assumptions C64_resolved.

(** Resolution succeeds if every name of a type is declared in sight. *)
Theorem C64_resolves : forall o src, (forall r, some_order (o r)) -> well_formed src -> resolvable src ->
  eventually (fun fuel => exists ps, resolve_types fuel (link o (parsed src)) (parsed src) = Ok ps).
Proof. exact (fun o src O W R => resolve_types_some o src O W R). Qed.
Print Assumptions C64_resolves.

Definition x_raw : sources :=
  [("app", ([(KdStruct, "Scene", BCompound false [] [("b", ref "" "Box")] [])], [("geo", None)]));
   ("geo", ([(KdStruct, "Box", BCompound false [] [("w", native "uint8")] [])], []))].
Example C64_resolved_case :
  unqualified x_raw /\ resolvable x_raw
  /\ resolve_types 3 (link (fun _ l => l) (parsed x_raw)) (parsed x_raw)
     = Ok (parsed
         [("app", ([(KdStruct, "Scene", BCompound false [] [("b", ref "geo" "Box")] [])], [("geo", None)]));
          ("geo", ([(KdStruct, "Box", BCompound false [] [("w", native "uint8")] [])], []))]).
Proof.
  split; [|split].
  - intros p k n x t (ds & i & [I|[I|[]]] & J & _) T; injection I as <- <- <-; cbn in J;
      destruct J as [J|[]]; injection J as <- <- <-; cbn in T; destruct T as [<-|[]]; reflexivity.
  - intros p k n x t (ds & i & [I|[I|[]]] & J & _) T B; injection I as <- <- <-; cbn in J;
      destruct J as [J|[]]; injection J as <- <- <-; cbn in T; destruct T as [<-|[]]; [|discriminate B].
    eexists "geo", KdStruct, _. split.
    + econstructor; [constructor|]. eexists _, _, None. split; [left; reflexivity|left; reflexivity].
    + eexists _, _. split; [right; left; reflexivity|]. split; [left; reflexivity|reflexivity].
  - vm_compute. reflexivity.
Qed.

(** ** C65 *)

(** The files that count. *)
Theorem C65_names : forall f, is_schema_file f = true <-> schema_name f.
Proof. exact schema_file. Qed.
Print Assumptions C65_names.
Example C65_names_case : schema_name "map.ZS" /\ ~ schema_name "map.zs.bak".
Proof.
  split; [exists "map", ".ZS"; split; [reflexivity|left]|].
  - repeat split; [now left|right; exists 25%nat; repeat split; lia|right; exists 18%nat; repeat split; lia].
  - intros H. apply schema_file in H. discriminate H.
Qed.

(** Every package of a schema file, and nothing else, is loaded, whatever the order of
    the files, if no two files share a package. *)
Theorem C65_loaded : forall X (files : list (string * option (string * X))),
  (forall f, In (f, None) files -> ~ schema_name f) ->
  (forall f f' p x x', In (f, Some (p, x)) files -> In (f', Some (p, x')) files ->
     schema_name f -> schema_name f' -> x = x') ->
  exists ps, from_filesystem files = Ok ps
  /\ forall p x, assoc ps p = Some x <-> exists f, In (f, Some (p, x)) files /\ schema_name f.
Proof. exact @files_distinct. Qed.
Print Assumptions C65_loaded.
Example C65_loaded_case :
  from_filesystem [("a.zs", Some ("a", 1%Z)); ("README.md", None); ("b.zserio", Some ("b", 2%Z))]
  = Ok [("a", 1%Z); ("b", 2%Z)].
Proof. reflexivity. Qed.

(** A schema file that cannot be read or parsed stops the program. *)
Theorem C65_abort : forall X (files : list (string * option (string * X))),
  from_filesystem files = Panic <-> exists f, In (f, None) files /\ schema_name f.
Proof. exact @files_abort. Qed.
Print Assumptions C65_abort.

(** Of several files with the same package the one visited last is kept ... *)
Theorem C65_last : forall X (a b : list (string * option (string * X))) f p x ps,
  from_filesystem (a ++ (f, Some (p, x)) :: b) = Ok ps -> schema_name f ->
  (forall g y, In (g, Some (p, y)) b -> ~ schema_name g) -> assoc ps p = Some x.
Proof. exact @files_last_wins. Qed.
Print Assumptions C65_last.
(** ... and the others are lost without notice; which one it is depends on the order of
    the directory. *)
Theorem C65_all_refuted : exists (files files' : list (string * option (string * Z))),
  Permutation files files' /\ (forall f px, In (f, px) files -> schema_name f /\ px <> None)
  /\ exists ps ps', from_filesystem files = Ok ps /\ from_filesystem files' = Ok ps'
  /\ assoc ps "p" = Some 2%Z /\ assoc ps' "p" = Some 1%Z.
Proof. exact lost_file. Qed.
Print Assumptions C65_all_refuted.
