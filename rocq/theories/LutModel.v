(* lookup_table with an integer argument: /repo/include/yato/lookup_table.h:71-161, 225-310.

   The specialisation for floating point arguments (lines 164-216) and the
   floating point interpolators are not modelled.  The argument type and the
   value type are arbitrary standard integer types, and every expression is
   evaluated with the promotions and conversions of the language: unsigned
   arithmetic wraps, signed overflow is undefined ([None]).  Conversions to a
   signed type wrap (implementation-defined before C++20, wraps on all targets).
   Release build: assert and YATO_ASSERT are empty, narrow_cast converts. *)
From Coq Require Import ZArith List Bool.
Import ListNotations.
Local Open Scope Z_scope.

(* ---- the language's integers ---- *)

Record ity := MkIty { sg : bool; bits : Z }.

Definition i32 := MkIty true 32.
Definition u32 := MkIty false 32.
Definition i64 := MkIty true 64.
Definition u64 := MkIty false 64.

Definition ity_min (t : ity) : Z := if sg t then - 2 ^ (bits t - 1) else 0.
Definition ity_max (t : ity) : Z := if sg t then 2 ^ (bits t - 1) - 1 else 2 ^ bits t - 1.
Definition in_ity (t : ity) (v : Z) : bool := (ity_min t <=? v) && (v <=? ity_max t).

Definition convert (t : ity) (v : Z) : Z :=
  let r := v mod 2 ^ bits t in
  if sg t && (2 ^ (bits t - 1) <=? r) then r - 2 ^ bits t else r.

(* integral promotions; int has 32 bits *)
Definition promote (t : ity) : ity := if bits t <? 32 then i32 else t.

(* usual arithmetic conversions *)
Definition common (t u : ity) : ity :=
  let t := promote t in let u := promote u in
  if Bool.eqb (sg t) (sg u) then MkIty (sg t) (Z.max (bits t) (bits u))
  else
    let (s, n) := if sg t then (t, u) else (u, t) in
    if bits n <? bits s then s else n.

Definition value := (ity * Z)%type.

(* the result of an arithmetic operation in type t *)
Definition result (t : ity) (v : Z) : option value :=
  if sg t then (if in_ity t v then Some (t, v) else None) else Some (t, convert t v).

Definition arith (op : Z -> Z -> Z) (a b : value) : option value :=
  let t := common (fst a) (fst b) in
  result t (op (convert t (snd a)) (convert t (snd b))).

Definition cadd := arith Z.add.
Definition csub := arith Z.sub.
Definition cmul := arith Z.mul.

Definition cdiv (a b : value) : option value :=
  let t := common (fst a) (fst b) in
  if convert t (snd b) =? 0 then None
  else result t (Z.quot (convert t (snd a)) (convert t (snd b))).

Definition cast (t : ity) (a : value) : value := (t, convert t (snd a)).

(* >> of a signed value; negative values shift arithmetically *)
Definition cshr (a : value) (n : Z) : option value :=
  let t := promote (fst a) in result t (convert t (snd a) / 2 ^ n).

(* << ; a result outside the type, or a negative operand, is undefined *)
Definition cshl (a : value) (n : Z) : option value :=
  let t := promote (fst a) in
  if convert t (snd a) <? 0 then None else result t (convert t (snd a) * 2 ^ n).

Notation "'let*' x := a 'in' b" := (match a with Some x => b | None => None end)
  (at level 200, x pattern, a at level 100, b at level 200).

(* ---- the table ---- *)

(* lines 105-108 *)
Record table := MkTable {
  samples : list Z;
  m_first : Z;
  m_length : Z;
  cache0 : Z;
  cache1 : Z
}.

Section Lut.
(* ArgTy_, ValTy_ and Size_ *)
Variables (AT VT : ity) (N : Z).

Let arg (x : Z) : value := (AT, x).
Let size (n : Z) : value := (u64, n).
Let int (n : Z) : value := (i32, n).

(* the abscissa of sample idx, line 123 *)
Definition sample_at (first last idx : Z) : option Z :=
  let* a := cmul (arg first) (size (N - 1)) in
  let* d := csub (arg last) (arg first) in
  let* b := cmul (size idx) d in
  let* s := cadd a b in
  let* q := cdiv s (size (N - 1)) in
  Some (snd (cast AT q)).

(* lines 122-125 *)
Fixpoint sample_all (f : Z -> Z) (first last : Z) (idxs : list nat) : option (list Z) :=
  match idxs with
  | [] => Some []
  | i :: rest =>
    let* x := sample_at first last (Z.of_nat i) in
    let* ys := sample_all f first last rest in
    Some (f x :: ys)
  end.

(* init_base_, lines 110-126 *)
Definition create (f : Z -> Z) (first last : Z) : option table :=
  let fst_ := snd (cast i32 (arg first)) in
  let* d := csub (arg last) (arg first) in
  let len := snd (cast i32 d) in
  let* p := cmul (int 2) (size N) in
  let* p := cmul p (int fst_) in
  let* c0 := csub (int len) (cast i32 p) in
  let* c1 := cmul (int 2) (int len) in
  let* ys := sample_all f first last (seq 0 (Z.to_nat N)) in
  Some (MkTable ys fst_ len (snd c0) (snd (cast i32 c1))).

(* get_index_(number<1>), lines 128-132; the multiplier is a size_t *)
Definition index1 (t : table) (x : Z) : option Z :=
  let* m := cmul (int 2) (size (N - 1)) in
  let* a := cmul m (arg x) in
  let* b := cadd a (int (cache0 t)) in
  let* q := cdiv b (int (cache1 t)) in
  Some (snd (cast i32 q)).

(* get_index_(number<2>), lines 134-143 *)
Definition index2 (t : table) (x : Z) : option (Z * Z) :=
  let* m := cmul (u32, 1024) (size (N - 1)) in
  let* d := csub (arg x) (int (m_first t)) in
  let* a := cmul m (cast i64 d) in
  let* q := cdiv a (int (m_length t)) in
  let tmp := cast i64 q in
  let* h := cshr tmp 10 in
  let idx := Z.min (snd (cast i32 h)) (snd (cast i32 (size (N - 2)))) in
  let* l := cshl (cast i64 (int idx)) 10 in
  let* al := csub tmp l in
  Some (idx, snd (cast u32 (cast i32 al))).

(* m_samples[i]: outside the array is undefined *)
Definition sample (t : table) (i : Z) : option Z :=
  if i <? 0 then None else nth_error (samples t) (Z.to_nat i).

(* lookup_table::get, lines 303-308, with lut_nearest_interpolator, lines 225-237 *)
Definition get_nearest (t : table) (x : Z) : option Z :=
  let* i := index1 t x in sample t i.

(* lut_linear_interpolator, lines 245-247 *)
Definition interpolate (alpha y0 y1 : Z) : option Z :=
  let* c := csub (u32, 1024) (u32, alpha) in
  let* a := cmul c (VT, y0) in
  let* b := cmul (u32, alpha) (VT, y1) in
  let* s := cadd a b in
  let* q := cdiv s (u32, 1024) in
  Some (snd (cast VT q)).

(* lookup_table::get with lut_linear_interpolator *)
Definition get_linear (t : table) (x : Z) : option Z :=
  let* (i, alpha) := index2 t x in
  let* y0 := sample t i in
  let* y1 := sample t (i + 1) in
  interpolate alpha y0 y1.

End Lut.
