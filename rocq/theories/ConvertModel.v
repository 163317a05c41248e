(* Model of the string conversions of /repo/modules/config/yato/config/utility.h
   and utility.cpp, of config_value::get (config_backend.h:294-301), and of
   narrow_cast (/repo/include/yato/types.h:22-57).
   A char buffer is the list of its bytes before the terminating NUL that
   std::string::data() supplies; a pointer into it is a position. Library
   functions (isspace, tolower, strtoll, to_string) are those of the C locale;
   bytes above 127 are neither blanks nor letters (passing them as signed char is
   formally undefined, utility.h:27,190). Doubles are left abstract. *)
From Coq Require Import String Ascii DecimalString List Bool Arith ZArith NArith.
Import ListNotations.
Open Scope Z_scope.

Definition text := list ascii.
Definition code (c : ascii) : Z := Z.of_N (N_of_ascii c).
Definition nul : ascii := ascii_of_N 0.
(* the byte at a position; NUL at the end *)
Definition char_at (s : text) (i : nat) : ascii := nth i s nul.
Definition is_space (c : ascii) : bool := (code c =? 32) || ((9 <=? code c) && (code c <=? 13)).

(* skip_spaces 25-32: the number of blanks at the front *)
Fixpoint blanks (s : text) : nat :=
  match s with
  | c :: t => if is_space c then S (blanks t) else O
  | [] => O
  end.
Definition skip_spaces (s : text) (i : nat) : nat := (i + blanks (skipn i s))%nat.

(* std::strlen *)
Fixpoint strlen (s : text) : nat :=
  match s with
  | c :: t => if code c =? 0 then O else S (strlen t)
  | [] => O
  end.

(* decode 40-65. The decoder gets the text at beg and gives its result and how
   many bytes it consumed, None when it leaves end null. str is not null; a None
   length is nolength. beg + (len - (beg - str)) is str + len, also if the size_t
   subtraction wraps. *)
Definition decode {A} (s : text) (len : option nat) (decoder : text -> A * option nat) : option A :=
  match len with
  | Some O => None
  | _ =>
      let beg := skip_spaces s 0 in
      let last := match len with None => (beg + strlen (skipn beg s))%nat | Some n => n end in
      let '(res, used) := decoder (skipn beg s) in
      match used with
      | None => None
      | Some k =>
          let end_ := (beg + k)%nat in
          let end' := if Nat.eqb end_ last then end_ else skip_spaces s end_ in
          if Nat.eqb end' last then Some res else None
      end
  end.

(* ---- integers, serializer<integer> 70-111 ---- *)
Definition digit (c : ascii) : Z :=
  let n := code c in
  if (48 <=? n) && (n <=? 57) then n - 48
  else if (97 <=? n) && (n <=? 122) then n - 87
  else if (65 <=? n) && (n <=? 90) then n - 55
  else 99.
(* the value and number of the digits at the front *)
Fixpoint digits (base acc : Z) (s : text) : Z * nat :=
  match s with
  | c :: t => if digit c <? base then let '(v, n) := digits base (acc * base + digit c) t in (v, S n) else (acc, O)
  | [] => (acc, O)
  end.
Definition is_x (c : ascii) : bool := (code c =? 120) || (code c =? 88).
(* the subject of strtoll with base 0 after the sign: value and length *)
Definition magnitude (s : text) : Z * nat :=
  match s with
  | c :: x :: h :: t =>
      if (code c =? 48) && is_x x && (digit h <? 16) then let '(v, n) := digits 16 0 (h :: t) in (v, S (S n))
      else if code c =? 48 then digits 8 0 s else digits 10 0 s
  | c :: t => if code c =? 48 then digits 8 0 s else digits 10 0 s
  | [] => (0, O)
  end.
Definition int_min : Z := - 2 ^ 63.
Definition int_max : Z := 2 ^ 63 - 1.
Definition clamp (v : Z) : Z := Z.max int_min (Z.min int_max v).
(* std::strtoll(str, &end, 0): blanks, sign, number; end = str if there is none *)
Definition strtoll (s : text) : Z * option nat :=
  let b := blanks s in
  let s1 := skipn b s in
  let '(neg, k) := match s1 with
                   | c :: _ => if code c =? 45 then (true, 1%nat) else if code c =? 43 then (false, 1%nat) else (false, O)
                   | [] => (false, O)
                   end in
  let '(v, n) := magnitude (skipn k s1) in
  match n with
  | O => (0, Some O)
  | _ => (clamp (if neg then - v else v), Some (b + k + n)%nat)
  end.
Definition int_of (s : text) (len : option nat) : option Z := decode s len strtoll.      (* 80-84 *)
Definition int_of_string (s : text) : option Z := int_of s (Some (length s)).           (* 86-90 *)
(* std::to_string *)
Definition chars (s : string) : text := list_ascii_of_string s.
Definition int_to_string (z : Z) : text :=
  if z <? 0 then "-"%char :: chars (NilEmpty.string_of_uint (N.to_uint (Z.to_N (- z))))
  else chars (NilEmpty.string_of_uint (N.to_uint (Z.to_N z))).

(* ---- booleans, serializer<boolean> 162-257 ---- *)
Definition lower (c : ascii) : ascii :=
  if (65 <=? code c) && (code c <=? 90) then ascii_of_N (N_of_ascii c + 32) else c.
Definition true_patterns : list text := map chars ["1"; "yes"; "y"; "true"; "t"; "on"]%string.       (* 166 *)
Definition false_patterns : list text := map chars ["0"; "no"; "n"; "false"; "f"; "off"]%string.     (* 167 *)
Definition pattern_length : nat := 6.
(* match 171-184 *)
Fixpoint matches (pattern s : text) : bool :=
  match pattern with
  | [] => true
  | p :: t => Ascii.eqb p (char_at s 0) && matches t (tl s)
  end.
(* 189-191: tmp; the rest of it is NUL *)
Definition lowered (s : text) : text := map lower (firstn (Nat.min (strlen s) pattern_length) s).
Fixpoint first_match (ps : list text) (tmp : text) : option nat :=
  match ps with
  | [] => None
  | p :: t => if matches p tmp then Some (length p) else first_match t tmp
  end.
(* strtobool 186-211 *)
Definition strtobool (s : text) : bool * option nat :=
  match first_match true_patterns (lowered s) with
  | Some n => (true, Some n)
  | None => match first_match false_patterns (lowered s) with
            | Some n => (false, Some n)
            | None => (false, None)
            end
  end.
Definition bool_of (s : text) (len : option nat) : option bool := decode s len strtobool.    (* 219-223 *)
Definition bool_of_string (s : text) : option bool := bool_of s (Some (length s)).
Definition bool_to_string (b : bool) : text := chars (if b then "1" else "0")%string.         (* 213-217 *)

(* ---- value_converter, utility.cpp:46-135 ---- *)
Inductive stored_type := TInteger | TReal | TBoolean | TString | TConfig.
Section Values.
Context {real config : Type}.
(* double -> int64_t when the value comes back exactly (98-104), int64_t ->
   double, double -> text, text -> double *)
Variables (exact : real -> option Z) (to_real : Z -> real) (real_to_string : real -> text) (real_of_string : text -> option real).
Inductive value := VVoid | VInteger (z : Z) | VReal (r : real) | VBoolean (b : bool) | VString (s : text) | VConfig (c : config).
(* apply 125-135 with the table 73-115; cvt_from_string_ leaves the string itself
   when it cannot be read (46-56); absent pairs give void *)
Definition apply (dst : stored_type) (src : value) : value :=
  match dst, src with
  | TInteger, VInteger _ | TReal, VReal _ | TBoolean, VBoolean _ | TString, VString _ | TConfig, VConfig _ => src
  | TInteger, VString s => match int_of_string s with Some z => VInteger z | None => src end
  | TReal, VString s => match real_of_string s with Some r => VReal r | None => src end
  | TBoolean, VString s => match bool_of_string s with Some b => VBoolean b | None => src end
  | TString, VInteger z => VString (int_to_string z)
  | TString, VReal r => VString (real_to_string r)
  | TString, VBoolean b => VString (bool_to_string b)
  | TInteger, VReal r => match exact r with Some z => VInteger z | None => VVoid end
  | TInteger, VBoolean b => VInteger (if b then 1 else 0)
  | TReal, VInteger z => VReal (to_real z)
  | TBoolean, VInteger z => VBoolean (negb (z =? 0))
  | _, _ => VVoid
  end.
(* config_value::get<Ty>(dst_type), config_backend.h:294-301 *)
Definition get_integer (v : value) : option Z := match apply TInteger v with VInteger z => Some z | _ => None end.
Definition get_boolean (v : value) : option bool := match apply TBoolean v with VBoolean b => Some b | _ => None end.
Definition get_string (v : value) : option text := match apply TString v with VString s => Some s | _ => None end.
End Values.
Arguments value : clear implicits.

(* ---- integral types and narrow_cast, types.h:22-57 ---- *)
Inductive ity := Int (signed : bool) (bits : Z) | Bool.
Definition is_signed (t : ity) : bool := match t with Int s _ => s | Bool => false end.
(* static_cast<t>(v) *)
Definition cast (t : ity) (v : Z) : Z :=
  match t with
  | Int s n => let r := v mod 2 ^ n in if s && (2 ^ (n - 1) <=? r) then r - 2 ^ n else r
  | Bool => if v =? 0 then 0 else 1
  end.
(* the arguments have type from; None is the failed assertion of a debug build *)
Definition narrow_cast (debug : bool) (to from : ity) (v : Z) : option Z :=
  let t := cast to v in
  if debug then
    if (v =? cast from t) &&
       (if Bool.eqb (is_signed to) (is_signed from) then true else Bool.eqb (t <? 0) (v <? 0))
    then Some t else None
  else Some t.

(* storing a number of an integer type (config.h:998-1078) and reading it
   (narrow_converter, config_backend.h:115-127) *)
Definition int64 : ity := Int true 64.
Definition store_int {real config} (debug : bool) (t : ity) (v : Z) : option (value real config) :=
  option_map VInteger (narrow_cast debug int64 t v).
Definition load_int (debug : bool) (t : ity) (z : option Z) : option (option Z) :=
  match z with
  | None => Some None
  | Some z => option_map Some (narrow_cast debug t int64 z)
  end.
