(** Property theorems C93: objects that functions return. *)
From Coq Require Import ZArith List Bool String Lia Permutation.
From Verif Require Import M_Base M_Expr M_Print M_Pkg M_Mod S_Mod M_Visit M_Item S_Item X_Item S_Trait X_Trait S_Expr S_Print S_Rust S_Obj X_Obj.
From Verif Require P_Obj P_Copy P_Trait3.
Import ListNotations.
Open Scope string_scope.
Local Open Scope list_scope.

(** The body generated for a function that returns a declared type is accepted by Rust
    exactly if the type is copied or every value it may return is an item of an enum or
    the result of a call, and then the function returns the value of its expression. *)
Theorem C93_function : forall V b fuel sc (L : oenv V) N, alike b fuel sc L N -> forall ret e r ts T v,
  tr_builtin ret = false -> rust_name ret = Ok T ->
  eval b fuel sc e = Ok r -> gen_function b fuel sc ret e = Ok ts -> grouped e -> plain e -> objecty b fuel sc e ->
  object N e = Some (T, v) ->
  exists g, rust_reads ts g /\ (returns_object L g T v <-> fresh sc e \/ o_copies L T = true)
    /\ forall T' v', returns_object L g T' v' -> T' = T /\ v' = v.
Proof. exact P_Obj.function_object. Qed.
Print Assumptions C93_function.

Example C93_function_case : alike Debug 3 obj_sc obj_L obj_N
  /\ (exists r ts, eval Debug 3 obj_sc obj_e = Ok r /\ gen_function Debug 3 obj_sc obj_color obj_e = Ok ts
        /\ grouped obj_e /\ plain obj_e /\ objecty Debug 3 obj_sc obj_e /\ object obj_N obj_e = Some ("Color", 10%Z)
        /\ o_copies obj_L "Color" = true)
  /\ (exists r ts, eval Debug 3 obj_sc obj_best = Ok r /\ gen_function Debug 3 obj_sc obj_page obj_best = Ok ts
        /\ grouped obj_best /\ plain obj_best /\ objecty Debug 3 obj_sc obj_best /\ object obj_N obj_best = Some ("Page", 4%Z)
        /\ o_copies obj_L "Page" = false /\ fresh obj_sc obj_best).
Proof.
  split; [apply obj_alike|]. split.
  - eexists. eexists. split; [vm_compute; reflexivity|]. split; [vm_compute; reflexivity|].
    split; [cbn; repeat split; lia|]. split; [cbn; repeat split|]. split; [|split; reflexivity].
    split; [eexists; left; reflexivity|]. left. eexists. eexists. eexists. split; [reflexivity|left; reflexivity].
  - eexists. eexists. split; [vm_compute; reflexivity|]. split; [vm_compute; reflexivity|].
    split; [cbn; repeat split; lia|]. split; [cbn; repeat split|]. split; [|split; [reflexivity|split; [reflexivity|exact Logic.I]]].
    eexists. split; vm_compute; reflexivity.
Qed.

(** Of the types generated for a schema, those of enums and bitmasks are copied, and those
    of structures, choices and unions are not. *)
Theorem C93_copied : forall G b o pkgs fs,
  (forall l, Permutation (o l) l) -> apart G pkgs -> gen_model G b o pkgs = Ok fs ->
  (forall pkg z, In (pkg, z) (all_decls pkgs) -> ~ instantiates z) ->
  writable G (all_decls pkgs) -> (forall pkg z, In (pkg, z) (all_decls pkgs) -> decl_known G (all_decls pkgs) z) ->
  (forall pkg z, In (pkg, z) (all_decls pkgs) -> peopled z) ->
  forall pkg z, In (pkg, z) (all_decls pkgs) -> structural z \/ enumerated z ->
  (offers fs (root_file G) (g_root G) "Copy" (type_path G (pkg, z)) <-> enumerated z).
Proof. exact P_Copy.copied_iff. Qed.
Print Assumptions C93_copied.

Example C93_copied_case : exists fs,
  gen_model xi_env Debug (fun l => l) xt_pkgs = Ok fs /\ apart xi_env xt_pkgs
  /\ (forall pkg z, In (pkg, z) (all_decls xt_pkgs) -> ~ instantiates z) /\ writable xi_env (all_decls xt_pkgs)
  /\ (forall pkg z, In (pkg, z) (all_decls xt_pkgs) -> decl_known xi_env (all_decls xt_pkgs) z)
  /\ (forall pkg z, In (pkg, z) (all_decls xt_pkgs) -> peopled z)
  /\ In ("tree", xt_node) (all_decls xt_pkgs) /\ structural xt_node
  /\ In ("tree", xi_kind) (all_decls xt_pkgs) /\ enumerated xi_kind.
Proof.
  destruct P_Trait3.trait_case as (fs & A & B & C & D & E & _ & _ & F & H). exists fs.
  split; [exact A|]. split; [exact B|]. split; [exact C|]. split; [exact D|].
  split; [intros pkg z I; exact (proj1 (E pkg z I))|]. split; [exact F|]. split; [exact H|]. split; [exact Logic.I|].
  split; [vm_compute; tauto|exact Logic.I].
Qed.

(** [function Page f() { return p.next; }], with a field [p] of the structure [Page], is
    accepted by the compiler, which generates code for it that rustc rejects. *)
Theorem C93_refuted : exists ts g, gen_function Debug 3 obj_sc obj_page obj_next = Ok ts
  /\ rust_reads ts g /\ object obj_N obj_next = Some ("Page", 3%Z) /\ forall T v, ~ returns_object obj_L g T v.
Proof.
  eexists. eexists. split; [vm_compute; reflexivity|]. split; [exists 20%nat; vm_compute; reflexivity|].
  split; [reflexivity|]. intros T v H. discriminate H.
Qed.
Print Assumptions C93_refuted.
