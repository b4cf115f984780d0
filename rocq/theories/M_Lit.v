(** Model of what the visitor makes of the texts in a schema (literals, type
    names, alignments, imports) and of the texts generated for literals.
    Rust is cited as [path:lines]; paths are relative to /repo/crates; [internal]
    abbreviates zserio-rs-build/src/internal. Texts are lists of bytes (UTF-8). *)
From Coq Require Import ZArith List Bool String Ascii.
From Coq Require Import Floats.SpecFloat.
From Verif Require Import M_Base M_Expr M_Scope.
Import ListNotations.
Open Scope Z_scope.

Definition code (c : ascii) : Z := Z.of_N (N_of_ascii c).
Definition between (a : ascii) (c : ascii) (b : ascii) : bool :=
  (code a <=? code c) && (code c <=? code b).

(** ** std: [char::to_digit], [iN::from_str_radix], [str::parse] *)

(** [char::to_digit(radix)]. *)
Definition to_digit (radix : Z) (c : ascii) : option Z :=
  let v := if between "0" c "9" then Some (code c - code "0")
           else if between "a" c "z" then Some (code c - code "a" + 10)
           else if between "A" c "Z" then Some (code c - code "A" + 10)
           else None in
  match v with
  | Some d => if d <? radix then Some d else None
  | None => None
  end.

(** The loop of [from_str_radix]: every step multiplies and adds (or subtracts,
    behind a minus sign) with overflow checks; [lo]..[hi] is the range of the
    type. *)
Fixpoint digits_loop (radix lo hi : Z) (neg : bool) (acc : Z) (s : string) : option Z :=
  match s with
  | EmptyString => Some acc
  | String c tl =>
      match to_digit radix c with
      | None => None
      | Some d =>
          let m := acc * radix in
          if (lo <=? m) && (m <=? hi) then
            let a := if neg then m - d else m + d in
            if (lo <=? a) && (a <=? hi) then digits_loop radix lo hi neg a tl else None
          else None
      end
  end.

(** [from_str_radix]: empty texts and lonely signs are errors; a minus sign is
    one only for signed types. *)
Definition from_str_radix (signed : bool) (lo hi radix : Z) (s : string) : option Z :=
  match s with
  | EmptyString => None
  | String c EmptyString =>
      if Ascii.eqb c "+" || Ascii.eqb c "-" then None
      else digits_loop radix lo hi false 0 s
  | String c tl =>
      if Ascii.eqb c "+" then digits_loop radix lo hi false 0 tl
      else if Ascii.eqb c "-" && signed then digits_loop radix lo hi true 0 tl
      else digits_loop radix lo hi false 0 s
  end.
Definition i32_from_str_radix (radix : Z) (s : string) : option Z :=
  from_str_radix true (- 2 ^ 31) (2 ^ 31 - 1) radix s.
Definition u8_from_str (s : string) : option Z := from_str_radix false 0 255 10 s.

(** [str::trim_start_matches(p)]: the prefix [p] is removed as often as it occurs. *)
Fixpoint drop_prefix (p s : string) : option string :=
  match p, s with
  | EmptyString, _ => Some s
  | String a p', String b s' => if Ascii.eqb a b then drop_prefix p' s' else None
  | _, _ => None
  end.
Fixpoint trim_start (fuel : nat) (p s : string) : string :=
  match fuel with
  | O => s
  | S k => match drop_prefix p s with Some s' => trim_start k p s' | None => s end
  end.
Definition trim_start_matches (p s : string) : string := trim_start (String.length s) p s.

(** [str::trim_end_matches(c)] for a character. *)
Fixpoint trim_end_matches (c : ascii) (s : string) : string :=
  match s with
  | EmptyString => EmptyString
  | String a tl =>
      match trim_end_matches c tl with
      | EmptyString => if Ascii.eqb a c then EmptyString else String a EmptyString
      | t => String a t
      end
  end.

(** [str::parse::<f64>]: an optional sign, digits with at most one point among
    them and at least one digit, an optional exponent; the words [inf],
    [infinity], [nan] are left out (no literal of the schema language is one).
    The value is rounded correctly. *)
Fixpoint take_digits (s : string) : string * string :=
  match s with
  | String c tl =>
      match to_digit 10 c with
      | Some _ => let (a, b) := take_digits tl in (String c a, b)
      | None => (EmptyString, s)
      end
  | EmptyString => (EmptyString, EmptyString)
  end.
Fixpoint dec_value (acc : Z) (s : string) : Z :=
  match s with
  | EmptyString => acc
  | String c tl =>
      match to_digit 10 c with
      | Some d => dec_value (10 * acc + d) tl
      | None => acc
      end
  end.
Definition take_sign (s : string) : bool * string :=
  match s with
  | String c tl => if Ascii.eqb c "-" then (true, tl)
                   else if Ascii.eqb c "+" then (false, tl) else (false, s)
  | EmptyString => (false, s)
  end.
Definition parse_exponent (s : string) : option Z :=
  match s with
  | EmptyString => Some 0
  | String c tl =>
      if Ascii.eqb c "e" || Ascii.eqb c "E" then
        let (neg, t) := take_sign tl in
        let (ds, r) := take_digits t in
        match ds, r with
        | String _ _, EmptyString => Some (if neg then - dec_value 0 ds else dec_value 0 ds)
        | _, _ => None
        end
      else None
  end.
(** [m * 10 ^ e] in binary64, round to nearest even. *)
Definition f64_of_dec (neg : bool) (m e : Z) : spec_float :=
  match m with
  | Zpos p =>
      if 0 <=? e then binary_normalize 53 1024 ((if neg then -1 else 1) * m * 10 ^ e) 0 neg
      else match 10 ^ (- e) with
           | Zpos q => SFdiv 53 1024 (S754_finite neg p 0) (S754_finite false q 0)
           | _ => S754_nan
           end
  | _ => S754_zero neg
  end.
Definition parse_f64 (s : string) : option spec_float :=
  let (neg, t) := take_sign s in
  let (ip, r) := take_digits t in
  let (fp, r2) := match r with
                  | String c tl => if Ascii.eqb c "." then take_digits tl else (EmptyString, r)
                  | EmptyString => (EmptyString, r)
                  end in
  match (ip ++ fp)%string with
  | EmptyString => None
  | ds => match parse_exponent r2 with
          | Some e => Some (f64_of_dec neg (dec_value 0 ds) (e - Z.of_nat (String.length fp)))
          | None => None
          end
  end.

(** ** Literals *)

(** [internal/parser/ZserioLexer.g4:119-151] the kinds of literal tokens. *)
Inductive ltok := TkBool | TkDec | TkHex | TkOct | TkBin | TkStr | TkFloat | TkDouble.

Definition expect {A} (x : option A) : res A := match x with Some a => Ok a | None => Panic end.

(** [internal/visitor.rs:936-975] the value of a literal. *)
Definition visit_literal (t : ltok) (s : string) : res lit :=
  match t with
  | TkBool =>
      if String.eqb s "true" then Ok (LBool true)
      else if String.eqb s "false" then Ok (LBool false) else Panic
  | TkDec => rmap LInt (expect (i32_from_str_radix 10 s))
  | TkHex => rmap LInt (expect (i32_from_str_radix 16 (trim_start_matches "0x" s)))
  | TkOct => rmap LInt (expect (i32_from_str_radix 8 s))
  | TkBin => rmap LInt (expect (i32_from_str_radix 2 (trim_end_matches "b" s)))
  | TkStr =>
      if (2 <=? Z.of_nat (String.length s))
      then Ok (LString (substring 1 (String.length s - 2) s)) else Panic
  | TkFloat | TkDouble => rmap LFloat (expect (parse_f64 s))
  end.

(** ** Texts generated for literals *)

Definition digit_char (d : Z) : ascii :=
  if d <? 10 then ascii_of_N (Z.to_N (d + code "0")) else ascii_of_N (Z.to_N (d - 10 + code "a")).
(** The digits of [v >= 0], most significant first; [acc] is what is behind them. *)
Fixpoint digits_of (fuel : nat) (radix v : Z) (acc : string) : string :=
  match fuel with
  | O => acc
  | S k =>
      let acc' := String (digit_char (v mod radix)) acc in
      if v <? radix then acc' else digits_of k radix (v / radix) acc'
  end.
(** Formatting an integer of at most 32 bits never needs more digits. *)
Definition to_digits (radix v : Z) : string := digits_of 33 radix v EmptyString.

(** [format!("{:#x}")], [format!("{:#o}")] on an i32 print its two's complement. *)
Definition fmt_radix (p : string) (radix v : Z) : string := (p ++ to_digits radix (wrap_u 32 v))%string.
(** [i32::to_string]. *)
Definition fmt_dec (v : Z) : string :=
  if v <? 0 then String "-" (to_digits 10 (- v)) else to_digits 10 v.

Definition quote : string := String """" EmptyString.

(** [internal/generator/expression.rs:433-468] generate_literal_expression for the
    token kind [t] and the value [l]; the values of the other kinds are the
    initial ones (434-437). The text of a float (450) is not modelled. [full] is
    [fully_resolved], which the visitor sets. *)
Definition literal_text (full : bool) (t : ltok) (l : lit) : res string :=
  let int_value := match l with LInt v => v | _ => 0 end in
  let bool_value := match l with LBool b => b | _ => false end in
  let string_value := match l with LString s => s | _ => EmptyString end in
  match t with
  | TkDec => Ok (fmt_dec int_value)
  | TkHex => Ok (fmt_radix "0x" 16 int_value)
  | TkOct => Ok (fmt_radix "0o" 8 int_value)
  | TkFloat | TkDouble => Err EData
  | TkBool => Ok (if bool_value then "true" else "false")%string
  | TkStr => Ok (quote ++ string_value ++ quote ++ (if full then "" else ".into()"))%string
  | TkBin => Panic
  end.

(** ** Type names, alignments, imports *)

(** [str::split(':')] up to the second piece. *)
Fixpoint split_once (c : ascii) (s : string) : option (string * string) :=
  match s with
  | EmptyString => None
  | String a tl =>
      if Ascii.eqb a c then Some (EmptyString, tl)
      else match split_once c tl with
           | Some (x, y) => Some (String a x, y)
           | None => None
           end
  end.
Definition until (c : ascii) (s : string) : string :=
  match split_once c s with Some (x, _) => x | None => s end.

(** [str::rsplit_once(c)]. *)
Fixpoint rsplit_once (c : ascii) (s : string) : option (string * string) :=
  match s with
  | EmptyString => None
  | String a tl =>
      match rsplit_once c tl with
      | Some (x, y) => Some (String a x, y)
      | None => if Ascii.eqb a c then Some (EmptyString, tl) else None
      end
  end.

(** [internal/visitor.rs:1470-1522] visit_typeReference; [targs] are the template
    arguments, already visited. The first argument tells whether the text was
    parsed as a builtin type. *)
Definition visit_type (builtin : bool) (s : string) (targs : list ty) : res ty :=
  if builtin then
    match split_once ":" s with
    | Some (n, rest) =>
        do bits <- expect (u8_from_str (until ":" rest)) ;
        Ok (Ty true "" n bits targs [] None)
    | None => Ok (Ty true "" s 0 targs [] None)
    end
  else
    match rsplit_once "." s with
    | Some (p, n) => Ok (Ty false p n 0 targs [] None)
    | None => Ok (Ty false "" s 0 targs [] None)
    end.

(** [internal/visitor.rs:566-581] visit_fieldAlignment: [t] is the kind of the literal
    if the expression is one. *)
Definition visit_alignment (t : option ltok) (s : string) : res Z :=
  match t with
  | Some TkDec => do _ <- visit_literal TkDec s ; expect (u8_from_str s)
  | _ => Panic
  end.

(** [Vec::join(".")]. *)
Fixpoint join_dots (l : list string) : string :=
  match l with
  | [] => EmptyString
  | [a] => a
  | a :: tl => (a ++ "." ++ join_dots tl)%string
  end.

(** [internal/visitor.rs:232-247] visit_importDeclaration: the path and whether it
    ends with a star. *)
Definition visit_import (ids : list string) (star : bool) : list string * option string :=
  if star then (ids, None)
  else match rev ids with
       | [] => ([], None)
       | n :: p => (rev p, Some n)
       end.

(** [internal/visitor.rs:249-265] visit_packageNameDefinition. *)
Definition visit_package_name (ids : list string) : string := join_dots ids.
