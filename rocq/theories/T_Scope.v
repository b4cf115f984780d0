(** Property theorems: name resolution and fundamental types (C45, C46). *)
From Coq Require Import ZArith List Bool String Lia.
From Verif Require Import M_Base M_Expr M_Scope S_Scope P_Scope.
Import ListNotations.
Open Scope nat_scope.
Open Scope string_scope.

(** ** C45 *)

(** A name the package declares itself, or that is local to the current symbol,
    means that. *)
Theorem C45_own_first : forall A (M : model A) p pk here name types_only s fuel,
  M p = Some pk -> own pk here name types_only = Some s ->
  resolve fuel M p here name types_only = Ok (s, p).
Proof. exact @resolve_own_first. Qed.
Print Assumptions C45_own_first.

(** Otherwise it means the declaration in the nearest imported package, earlier
    imports first; and if there is such a declaration, it is found. *)
Theorem C45_nearest : forall A (M : model A) p pk here name types_only s q,
  M p = Some pk -> own pk here name types_only = None ->
  (exists fuel, resolve fuel M p here name types_only = Ok (s, q)) <-> nearest M p name s q.
Proof. exact @resolve_nearest. Qed.
Print Assumptions C45_nearest.

(** Layers are distances in the import graph. *)
Theorem C45_layers : forall A (M : model A) p k q, In q (layer M p k) <-> reaches M k p q.
Proof. exact @layer_reaches. Qed.
Print Assumptions C45_layers.

(** A name that no reachable package declares is reported (the compiler panics) if
    the imports have no cycle ... *)
Theorem C45_missing : forall A (M : model A) p pk here name types_only,
  M p = Some pk -> own pk here name types_only = None ->
  nowhere M p name -> acyclic_below M p ->
  exists n, forall fuel, n <= fuel -> resolve fuel M p here name types_only = Panic.
Proof. exact @resolve_missing. Qed.
Print Assumptions C45_missing.

(** ... and the compiler does not terminate if they have one. *)
Theorem C45_cyclic_refuted : forall A (M : model A) p pk here name types_only,
  M p = Some pk -> own pk here name types_only = None ->
  nowhere M p name -> cycle_below M p ->
  forall fuel, resolve fuel M p here name types_only = NoFuel.
Proof. exact @resolve_cycle. Qed.
Print Assumptions C45_cyclic_refuted.

(** [import p.Symbol] makes every name of [p] visible, as [import p.*] does. *)
Theorem C45_single_import_ignored : forall A (M : model A) p here name types_only fuel,
  resolve fuel (whole M) p here name types_only = resolve fuel M p here name types_only.
Proof. exact @resolve_whole. Qed.
Print Assumptions C45_single_import_ignored.

(** After resolution, the symbol of an unqualified type reference is found in the
    package recorded in the reference. *)
Theorem C45_types : forall M p t t' fuel,
  t_builtin t = false -> t_pkg t = "" -> resolve_type fuel M p t = Ok t' ->
  exists s q, t' = set_pkg t q /\ get_symbol M t' = Ok s
    /\ resolve fuel M p None (t_name t) true = Ok (s, q).
Proof. exact resolve_type_ok. Qed.
Print Assumptions C45_types.

(** Packages: [a] imports [b] and [c]; [b] imports [d], [d] imports [a]. [X] is
    declared in [c] and [d], [Y] only in [d], [Z] in [a] and [b]; [W] nowhere. *)
Definition tab (l : list (string * nat)) : string -> option nat := fun n => assoc l n.
Definition pk (l : list (string * nat)) (i : list import) : pkg nat :=
  Pkg (fun _ _ => None) (tab l) i.
Definition ex_model : model nat :=
  fun p => assoc
    [("a", pk [("Z", 1)] [("b", None); ("c", Some "X")]);
     ("b", pk [("Z", 2)] [("d", None)]);
     ("c", pk [("X", 3)] []);
     ("d", pk [("X", 4); ("Y", 5)] [("a", None)])] p.

Example C45_case :
  resolve 9 ex_model "a" None "Z" true = Ok (1, "a")
  /\ resolve 9 ex_model "a" None "X" true = Ok (3, "c")
  /\ resolve 9 ex_model "a" None "Y" true = Ok (5, "d")
  /\ nearest ex_model "a" "Y" 5 "d".
Proof.
  split; [reflexivity|]. split; [reflexivity|]. split; [reflexivity|].
  apply (proj1 (C45_nearest _ ex_model "a" _ None "Y" true 5 "d" eq_refl eq_refl)).
  exists 9. reflexivity.
Qed.
Example C45_cyclic_case :
  nowhere ex_model "a" "W" /\ cycle_below ex_model "a"
  /\ forall fuel, resolve fuel ex_model "a" None "W" true = NoFuel.
Proof.
  assert (H : nowhere ex_model "a" "W").
  { assert (Hall : forall k q, reaches ex_model k "a" q -> In q ["a"; "b"; "c"; "d"]).
    { intros k q H. remember "a" as p. induction H as [|k p q r H IH Hr]; subst.
      - now left.
      - specialize (IH eq_refl). repeat destruct IH as [<- | IH]; try contradiction;
          cbn in Hr; intuition (subst; cbn; auto). }
    intros k q Hq. specialize (Hall _ _ Hq).
    repeat destruct Hall as [<- | Hall]; try contradiction;
      (eapply silent_spec; [reflexivity|reflexivity]). }
  assert (Hc : cycle_below ex_model "a").
  { exists 0, "a", 2. split; [constructor|].
    apply (reaches_step _ 2 "a" "d"); [|now left].
    apply (reaches_step _ 1 "a" "b"); [|now left].
    apply (reaches_step _ 0 "a" "a"); [constructor|now left]. }
  split; [exact H|]. split; [exact Hc|].
  exact (C45_cyclic_refuted _ ex_model "a" _ None "W" true eq_refl eq_refl H Hc).
Qed.
Example C45_missing_case :
  nowhere ex_model "c" "W" /\ acyclic_below ex_model "c"
  /\ resolve 0 ex_model "c" None "W" true = Panic.
Proof.
  assert (Hn : forall k q, reaches ex_model (S k) "c" q -> False).
  { intros k q H. apply (C45_layers _ ex_model "c" (S k) q) in H.
    assert (E : forall j, layer ex_model "c" (S j) = []).
    { induction j as [|j IH]; [reflexivity|]. cbn [layer] in IH |- *. now rewrite IH. }
    rewrite E in H. exact H. }
  split; [|split].
  - intros k q H. destruct (Hn _ _ H).
  - exists (fun _ => 0). intros k q r H Hr. exfalso. eapply Hn. econstructor; eassumption.
  - reflexivity.
Qed.

(** ** C46 *)

(** The fundamental type of a reference is what stands at the end of its chain of
    subtypes: a builtin type, or a type declared as something other than a
    subtype. The flag tells which. *)
Theorem C46_chain : forall M fuel t u b,
  well_named M -> fundamental fuel M t = Ok (u, b) ->
  exists n v, chain M n t v /\
    ((b = false /\ t_builtin v = true /\ same_but_args u v)
     \/ (b = true /\ declared M v /\ t_builtin u = false
         /\ t_pkg u = t_pkg v /\ t_name u = t_name v)).
Proof. exact fundamental_chain. Qed.
Print Assumptions C46_chain.

Theorem C46_end : forall M fuel t u b,
  well_named M -> fundamental fuel M t = Ok (u, b) ->
  (t_builtin u = true \/ declared M u) /\ (b = true <-> t_builtin u = false).
Proof. exact fundamental_end. Qed.
Print Assumptions C46_end.

(** It is the same for every name of the chain, apart from the arguments, which are
    those of the reference asked about. *)
Theorem C46_same : forall M n t v, chain M n t v ->
  forall fuel, fundamental (n + fuel) M t
    = match fundamental fuel M v with
      | Ok (u, b) => Ok (set_args u (t_args t), b)
      | Err e => Err e | Panic => Panic | NoFuel => NoFuel
      end.
Proof. exact fundamental_same. Qed.
Print Assumptions C46_same.

Theorem C46_arguments : forall M fuel t u b,
  fundamental fuel M t = Ok (u, b) -> t_args u = t_args t.
Proof. exact fundamental_args. Qed.
Print Assumptions C46_arguments.

Theorem C46_idempotent : forall M fuel t u b,
  well_named M -> fundamental fuel M t = Ok (u, b) ->
  forall fuel', 0 < fuel' -> fundamental fuel' M u = Ok (u, b).
Proof. exact fundamental_idempotent. Qed.
Print Assumptions C46_idempotent.

(** It exists for every chain that ends. *)
Theorem C46_total : forall M n t v,
  chain M n t v -> t_builtin v = true \/ declared M v ->
  exists u b, fundamental (S n) M t = Ok (u, b).
Proof. exact fundamental_total. Qed.
Print Assumptions C46_total.

(** A chain whose end is not declared, or is a symbol that is no type, aborts the
    compiler. *)
Theorem C46_rejected : forall M n t v,
  chain M n t v -> t_builtin v = false ->
  (forall pk s, M (t_pkg v) = Some pk -> pk_file pk (t_name v) = Some s -> s = TsOther) ->
  forall fuel, fundamental (n + S fuel) M t = Panic.
Proof. exact fundamental_rejects. Qed.
Print Assumptions C46_rejected.

(** Cyclic subtypes keep the compiler busy for ever. *)
Theorem C46_cyclic_refuted : forall M n t m v,
  chain M n t v -> chain M (S m) v v -> forall fuel, fundamental fuel M t = NoFuel.
Proof. exact fundamental_cycle. Qed.
Print Assumptions C46_cyclic_refuted.

(** [subtype bit:5 A; subtype A B; struct S; subtype S T; subtype V U; subtype U V;
    const uint8 C = 1; subtype C W; subtype q.S X]. *)
Definition ref (p n : string) (args : list expr) : ty := Ty false p n 0 [] args None.
Definition bit5 : ty := Ty true "" "bit" 5 [] [] None.
Definition ex_types : model tsym :=
  fun p => if String.eqb p "p" then
    Some (Pkg (fun _ _ => None) (fun n => assoc
      [("A", TsSubtype bit5); ("B", TsSubtype (ref "p" "A" []));
       ("S", TsDecl "S"); ("T", TsSubtype (ref "p" "S" []));
       ("U", TsSubtype (ref "p" "V" [])); ("V", TsSubtype (ref "p" "U" []));
       ("C", TsOther); ("W", TsSubtype (ref "p" "C" [])); ("X", TsSubtype (ref "q" "S" []))] n) [])
  else None.
Example C46_case :
  well_named ex_types
  /\ fundamental 3 ex_types (ref "p" "B" []) = Ok (bit5, false)
  /\ fundamental 3 ex_types (ref "p" "T" [EIndex]) = Ok (ref "p" "S" [EIndex], true)
  /\ (forall fuel, fundamental fuel ex_types (ref "p" "U" []) = NoFuel)
  /\ (forall fuel, fundamental (1 + S fuel) ex_types (ref "p" "W" []) = Panic)
  /\ forall fuel, fundamental (1 + S fuel) ex_types (ref "p" "X" []) = Panic.
Proof.
  split; [|split; [reflexivity|split; [reflexivity|split; [|split]]]].
  - intros p q n n' H H'. unfold ex_types in H. destruct (String.eqb p "p"); [|discriminate].
    inversion H; subst. cbn in H'.
    repeat (match type of H' with context [if String.eqb n ?k then _ else _] =>
              destruct (String.eqb n k) eqn:E; [apply String.eqb_eq in E; subst; congruence|clear E] end).
    discriminate.
  - apply (C46_cyclic_refuted _ 0 _ 1 (ref "p" "U" [])); [constructor|].
    repeat (econstructor; [split; reflexivity|]). constructor.
  - apply (C46_rejected _ _ _ (ref "p" "C" [])); [econstructor; [split; reflexivity|constructor]|reflexivity|].
    intros pk s H H'. injection H as <-. cbn in H'. congruence.
  - apply (C46_rejected _ _ _ (ref "q" "S" [])); [econstructor; [split; reflexivity|constructor]|reflexivity|].
    intros pk s H. discriminate H.
Qed.
