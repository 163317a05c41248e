(* What the conversions should do, independent of how they scan. *)
From Coq Require Import String Ascii List Bool ZArith NArith.
From Verif Require Import ConvertModel.
Import ListNotations.
Open Scope Z_scope.

Definition blank (s : text) : Prop := Forall (fun c => is_space c = true) s.

(* C integer literals: sign, then hexadecimal, octal or decimal digits *)
Definition digit_in (base : Z) (c : ascii) : Prop := digit c < base.
(* value of a digit string, the most significant first *)
Definition number (base : Z) (ds : text) : Z := fold_left (fun v c => v * base + digit c) ds 0.
Inductive unsigned : text -> Z -> Prop :=
  | U_dec c ds : digit_in 10 c -> c <> "0"%char -> Forall (digit_in 10) ds -> unsigned (c :: ds) (number 10 (c :: ds))
  | U_oct ds : Forall (digit_in 8) ds -> unsigned ("0"%char :: ds) (number 8 ds)
  | U_hex x c ds : x = "x"%char \/ x = "X"%char -> Forall (digit_in 16) (c :: ds) ->
      unsigned ("0"%char :: x :: c :: ds) (number 16 (c :: ds)).
Inductive literal : text -> Z -> Prop :=
  | L_plain s v : unsigned s v -> literal s v
  | L_plus s v : unsigned s v -> literal ("+"%char :: s) v
  | L_minus s v : unsigned s v -> literal ("-"%char :: s) (- v).
(* the nearest 64-bit integer *)
Definition nearest (v z : Z) : Prop :=
  (int_min <= v <= int_max /\ z = v) \/ (v < int_min /\ z = int_min) \/ (int_max < v /\ z = int_max).

Definition words (b : bool) : list text :=
  map chars (if b then ["1"; "y"; "yes"; "t"; "true"; "on"] else ["0"; "n"; "no"; "f"; "false"; "off"])%string.
(* equal but for the case of letters *)
Definition same_word (w w' : text) : Prop := map lower w = map lower w'.

Definition in_range (t : ity) (v : Z) : Prop :=
  match t with
  | Int true n => - 2 ^ (n - 1) <= v < 2 ^ (n - 1)
  | Int false n => 0 <= v < 2 ^ n
  | Bool => 0 <= v <= 1
  end.
Definition proper (t : ity) : Prop := match t with Int _ n => 1 < n | Bool => True end.

(* the characters that isspace, the digits of a numeral and tolower are about *)
Definition white : list ascii := map ascii_of_nat [9; 10; 11; 12; 13; 32]%nat.
Definition faces (v : Z) : list ascii :=
  nth (Z.to_nat v) (map chars
    ["0"; "1"; "2"; "3"; "4"; "5"; "6"; "7"; "8"; "9"; "aA"; "bB"; "cC"; "dD"; "eE"; "fF"]%string) [].
Definition letters : list (ascii * ascii) :=
  combine (chars "ABCDEFGHIJKLMNOPQRSTUVWXYZ") (chars "abcdefghijklmnopqrstuvwxyz").

(* when a stored value can be read as another type, and as what *)
Inductive as_integer {real config} (exact : real -> option Z) : value real config -> Z -> Prop :=
  | AI_integer z : as_integer exact (VInteger z) z
  | AI_true : as_integer exact (VBoolean true) 1
  | AI_false : as_integer exact (VBoolean false) 0
  | AI_real r z : exact r = Some z -> as_integer exact (VReal r) z
  | AI_string s z : int_of_string s = Some z -> as_integer exact (VString s) z.
Inductive as_boolean {real config} : value real config -> bool -> Prop :=
  | AB_boolean b : as_boolean (VBoolean b) b
  | AB_zero : as_boolean (VInteger 0) false
  | AB_other z : z <> 0 -> as_boolean (VInteger z) true
  | AB_string s b : bool_of_string s = Some b -> as_boolean (VString s) b.
Inductive as_text {real config} (print : real -> text) : value real config -> text -> Prop :=
  | AT_integer z : as_text print (VInteger z) (int_to_string z)
  | AT_boolean b : as_text print (VBoolean b) (bool_to_string b)
  | AT_real r : as_text print (VReal r) (print r)
  | AT_string s : as_text print (VString s) s.
