(** Proofs about which generated types are [Copy]. *)
From Coq Require Import ZArith List Bool String Ascii Lia Permutation.
From Verif Require Import M_Base P_Base M_Expr M_Pkg M_Print M_Mod S_Mod P_Mod P_Visit2 M_Visit M_Item S_Item P_Item P_Item2 P_Item3 S_Trait P_Trait P_Trait2.
From Verif Require S_Obj.
Import ListNotations.
Open Scope string_scope.
Local Open Scope list_scope.

Section Copies.
Context (G : genv) (b : build) (o : hash_order zdecl) (pkgs : list (string * zpackage zdecl)) (fs : files).
Hypothesis Ho : forall l, Permutation (o l) l.
Hypothesis Hap : apart G pkgs.
Hypothesis Hgen : gen_model G b o pkgs = Ok fs.
Hypothesis Hni : forall pkg z, In (pkg, z) (all_decls pkgs) -> ~ instantiates z.
Hypothesis Hw : writable G (all_decls pkgs).
Hypothesis Hk : forall pkg z, In (pkg, z) (all_decls pkgs) -> decl_known G (all_decls pkgs) z.

Lemma no_copy_impl : forall z items n fns, gen_items G z = Ok items -> ~ In (RImpl (Some "Copy") n fns) items.
Proof.
  intros z items n fns E I.
  destruct z as [nm tps ps fl gs|nm tps ps sel cases dflt gs|nm tps ps fl gs|nm t its|nm t its|nm t e|nm t|nm t]; cbn [gen_items] in E.
  - unfold gen_compound in E. repeat (apply bind_ok in E as (? & _ & E)). apply ok_inj in E. subst items.
    cbn in I. repeat (destruct I as [I|I]; [discriminate|]). destruct I.
  - unfold gen_compound in E. repeat (apply bind_ok in E as (? & _ & E)). apply ok_inj in E. subst items.
    cbn in I. repeat (destruct I as [I|I]; [discriminate|]). destruct I.
  - unfold gen_union in E. repeat (apply bind_ok in E as (? & _ & E)). cbv zeta in E. apply ok_inj in E. subst items.
    cbn in I. repeat (destruct I as [I|I]; [discriminate|]). destruct I.
  - unfold gen_enum in E. repeat (apply bind_ok in E as (? & _ & E)). apply ok_inj in E. subst items.
    cbn in I. repeat (destruct I as [I|I]; [discriminate|]). destruct I.
  - unfold gen_bitmask in E. repeat (apply bind_ok in E as (? & _ & E)). destruct its; [discriminate|]. apply ok_inj in E. subst items.
    cbn in I. repeat (destruct I as [I|I]; [discriminate|]). destruct I.
  - unfold gen_constant in E. apply bind_ok in E as ([bu ? ? ? ? ? ?] & _ & E). destruct bu; [|discriminate].
    apply bind_ok in E as (s & _ & E). apply ok_inj in E. subst items.
    cbn in I. repeat (destruct I as [I|I]; [discriminate|]). destruct I.
  - unfold gen_subtype in E. apply bind_ok in E as (s & _ & E). apply ok_inj in E. subst items.
    cbn in I. repeat (destruct I as [I|I]; [discriminate|]). destruct I.
  - apply ok_inj in E. subst items. destruct I.
Qed.

(** Structures, choices and unions are not. *)
Theorem compounds_not_copied : forall pkg z, In (pkg, z) (all_decls pkgs) -> is_compound z ->
  ~ offers fs (root_file G) (g_root G) "Copy" (type_path G (pkg, z)).
Proof using Ho Hap Hgen Hni Hw Hk.
  intros pkg z I X OF. change (root_file G) with (top_name G) in OF.
  destruct (leads_struct G b o pkgs fs Ho Hap Hgen Hni Hw Hk pkg z I X) as (_ & n' & l' & _ & _ & _ & U & _).
  remember (type_path G (pkg, z)) as T eqn:Q. unfold type_path in Q. cbn [fst snd] in Q.
  destruct OF as [n s v R H|H|n R H|H|n R H|T N H|T H|p n d l L H|p n d l L H N|p bs n l L H|p q items it n fns L D H J K|p n T L H O'];
    try discriminate Q; apply path_inj in Q.
  1-2: destruct (decl_path_long G pkg z) as (x & y & l & E); rewrite E in Q;
    unfold crate_path in Q; destruct (String.eqb (g_root G) ""); destruct l; discriminate.
  all: apply crate_path_inj in Q; subst p; pose proof (U _ L) as E.
  - injection E as -> -> ->. cbn in H. intuition discriminate.
  - discriminate E.
  - discriminate E.
  - apply content_of_incl in H. destruct (all_written G b o pkgs fs Hap Hgen _ _ H) as [(_ & toks & C)|(m & p & _ & [(_ & l & C)|(y & its & _ & _ & E' & C)])];
      try discriminate C. injection C as ->. exact (no_copy_impl _ _ _ _ E' K).
  - discriminate E.
Qed.
(** Bitmasks are. *)
Theorem masks_copied : forall pkg nm t items, In (pkg, ZMask nm t items) (all_decls pkgs) ->
  offers fs (root_file G) (g_root G) "Copy" (type_path G (pkg, ZMask nm t items)).
Proof using Ho Hap Hgen Hni.
  intros pkg nm t items I. change (root_file G) with (top_name G).
  destruct (path_leads G b o pkgs fs Ho Hap Hgen Hni pkg _ I) as (its' & it & E' & J & D & K & L & U).
  destruct it; cbn in K; try destruct K. eapply OfMask; [exact L|]. cbn. tauto.
Qed.
Hypothesis Hp : forall pkg z, In (pkg, z) (all_decls pkgs) -> peopled z.
Theorem copied_iff : forall pkg z, In (pkg, z) (all_decls pkgs) -> S_Obj.structural z \/ S_Obj.enumerated z ->
  (offers fs (root_file G) (g_root G) "Copy" (type_path G (pkg, z)) <-> S_Obj.enumerated z).
Proof using Ho Hap Hgen Hni Hw Hk Hp.
  intros pkg z I [X|X].
  - split; [|intros Y; exfalso; destruct z; solve [destruct X|destruct Y]].
    intros OF. exfalso. refine (compounds_not_copied pkg z I _ OF). destruct z; first [destruct X; fail|exact Logic.I].
  - split; [intros _; exact X|]. intros _. destruct z; try destruct X.
    + refine (enums_offer G b o pkgs fs Ho Hap Hgen Hni Hk Hp "Copy" _ pkg nm t items I). now left.
    + exact (masks_copied pkg nm t items I).
Qed.
End Copies.
