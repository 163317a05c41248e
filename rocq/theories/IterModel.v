(* The two iterators that only count, numeric_iterator
   (/repo/include/yato/numeric_iterator.h) and config_iterator
   (/repo/modules/config/yato/config/config.h 393-609), in release and debug builds,
   with the integer arithmetic of C++: a signed result that does not fit is
   undefined, types narrower than int are computed as int.

   Simplifications.
   - Integer types have 8, 16, 32 or 64 bits; int has 32 and ptrdiff_t and size_t 64.
   - Converting to a signed type that cannot hold the value wraps (defined by the
     implementation before C++20, and so by all of them).
   - YATO_ENABLE_TESTED_ASSERTIONS is off: the assertions of narrow_cast are those
     of assertion.h 175. assert() and YATO_REQUIRES stop the program.
   - A config is that of ConfigModel; a shared_ptr to its backend is a number, and
     [cfg] says which config that is. *)
From Coq Require Import List Bool Arith ZArith.
From Verif Require Import ConvertModel ConfigModel.
Import ListNotations.
Open Scope Z_scope.

Inductive out (A : Type) := Val (x : A) | Undef | Stop.
Arguments Val {A}. Arguments Undef {A}. Arguments Stop {A}.
Definition bind {A B} (x : out A) (f : A -> out B) : out B :=
  match x with Val a => f a | Undef => Undef | Stop => Stop end.
Notation "'do' x <- e ; k" := (bind e (fun x => k)) (at level 200, x pattern, e at level 100, k at level 200).

(* assertion.h 100-110 *)
Definition requires {A} (debug c : bool) (k : out A) : out A :=
  if debug then if c then k else Stop else k.

(* ---- integers ---- *)
Definition signed (t : ity) : bool := is_signed t.
Definition width (t : ity) : Z := match t with Int _ n => n | Bool => 8 end.
(* std::numeric_limits<t>::min(), max() *)
Definition tmin (t : ity) : Z := if signed t then - 2 ^ (width t - 1) else 0.
Definition tmax (t : ity) : Z := if signed t then 2 ^ (width t - 1) - 1 else 2 ^ width t - 1.
Definition ptrdiff : ity := Int true 64.
Definition sizet : ity := Int false 64.
Definition int32 : ity := Int true 32.
(* integral promotion *)
Definition promoted (t : ity) : ity := if width t <? 32 then int32 else t.
(* the result v of an arithmetic operation in type t *)
Definition arith (t : ity) (v : Z) : out Z :=
  if (tmin t <=? v) && (v <=? tmax t) then Val v else if signed t then Undef else Val (cast t v).
(* a + b, a - b for operands of type t, and the assignments m += b, ++m *)
Definition sum (t : ity) (a b : Z) : out Z := arith (promoted t) (a + b).
Definition difference (t : ity) (a b : Z) : out Z := arith (promoted t) (a - b).
Definition assign_sum (t : ity) (a b : Z) : out Z := do v <- sum t a b; Val (cast t v).
Definition assign_difference (t : ity) (a b : Z) : out Z := do v <- difference t a b; Val (cast t v).
(* narrow_cast<to>(v), types.h 49-59 *)
Definition narrow (debug : bool) (to from : ity) (v : Z) : out Z :=
  match narrow_cast debug to from v with Some x => Val x | None => Stop end.

(* what a class of iterators offers; a modifying postfix operator gives the new
   iterator and the returned one *)
Record cls (I R : Type) := Cls {
  start : nat -> Z -> out I;
  pre_inc : I -> out I; post_inc : I -> out (I * I);
  pre_dec : I -> out I; post_dec : I -> out (I * I);
  add_to : I -> Z -> out I; sub_from : I -> Z -> out I;
  plus : I -> Z -> out I; plus_l : Z -> I -> out I;
  minus : I -> Z -> out I; minus_l : Z -> I -> out I;
  diff : I -> I -> out Z;
  eq : I -> I -> out bool; ne : I -> I -> out bool; lt : I -> I -> out bool;
  gt : I -> I -> out bool; le : I -> I -> out bool; ge : I -> I -> out bool;
  deref : I -> out R; arrow : I -> out R; subscript : I -> Z -> out R }.
Arguments start {I R}. Arguments pre_inc {I R}. Arguments post_inc {I R}. Arguments pre_dec {I R}.
Arguments post_dec {I R}. Arguments add_to {I R}. Arguments sub_from {I R}. Arguments plus {I R}.
Arguments plus_l {I R}. Arguments minus {I R}. Arguments minus_l {I R}. Arguments diff {I R}.
Arguments eq {I R}. Arguments ne {I R}. Arguments lt {I R}. Arguments gt {I R}. Arguments le {I R}.
Arguments ge {I R}. Arguments deref {I R}. Arguments arrow {I R}. Arguments subscript {I R}.

(* ---- numeric_iterator<t>, numeric_iterator.h ---- *)
Section Numeric.
Variable t : ity.
Variable debug : bool.
(* 67-73 *)
Definition n_pre_inc (m : Z) : out Z := requires debug (m <? tmax t) (assign_sum t m 1).
(* 75-81 *)
Definition n_post_inc (m : Z) : out (Z * Z) :=
  requires debug (m <? tmax t) (let temp := m in do m' <- assign_sum t m 1; Val (m', temp)).
(* 83-88 *)
Definition n_pre_dec (m : Z) : out Z := requires debug (tmin t <? m) (assign_difference t m 1).
(* 90-96 *)
Definition n_post_dec (m : Z) : out (Z * Z) :=
  requires debug (tmin t <? m) (let temp := m in do m' <- assign_difference t m 1; Val (m', temp)).
(* 98-103; the condition is evaluated in a debug build only *)
Definition n_add_to (m offset : Z) : out Z :=
  let update := do d <- narrow debug t ptrdiff offset; assign_sum t m d in
  if debug then
    do d <- narrow debug t ptrdiff offset;
    do bound <- difference t (tmax t) d;
    requires debug (m <=? bound) update
  else update.
(* 105-109 *)
Definition n_plus (m offset : Z) : out Z := let tmp := m in n_add_to tmp offset.
(* 111-116 *)
Definition n_sub_from (m offset : Z) : out Z :=
  let update := do d <- narrow debug t ptrdiff offset; assign_difference t m d in
  if debug then
    do d <- narrow debug t ptrdiff offset;
    do bound <- sum t (tmin t) d;
    requires debug (bound <=? m) update
  else update.
(* 118-122 *)
Definition n_minus (m offset : Z) : out Z := let tmp := m in n_sub_from tmp offset.
(* 124-127: computed in the promoted type and converted to ptrdiff_t *)
Definition n_diff (m right : Z) : out Z := do v <- difference t m right; Val (cast ptrdiff v).
(* 129-132: *(it + offset) is a reference to the member of a temporary, which is
   destroyed when the operator returns; here the caller reads it *)
Definition n_subscript (m offset : Z) : out Z := do _ <- n_plus m offset; Undef.
(* 54-64, 134-162; there is no operator+(offset, iterator): such a program does
   not compile *)
Definition numeric : cls Z Z := {|
  start := fun _ v => Val v;
  pre_inc := n_pre_inc; post_inc := n_post_inc; pre_dec := n_pre_dec; post_dec := n_post_dec;
  add_to := n_add_to; sub_from := n_sub_from; plus := n_plus; plus_l := fun _ _ => Undef;
  minus := n_minus; minus_l := fun _ _ => Undef; diff := n_diff;
  eq := fun a b => Val (a =? b); ne := fun a b => Val (negb (a =? b));
  lt := fun a b => Val (a <? b); gt := fun a b => Val (b <? a);
  le := fun a b => Val (a <=? b); ge := fun a b => Val (b <=? a);
  deref := fun m => Val m; arrow := fun m => Val m; subscript := n_subscript |}.
End Numeric.

(* ---- config_iterator, config.h ---- *)
(* 605-607 *)
Record citer := CIter { m_backend : nat; m_idx : Z; m_size : Z }.
Section Conf.
Variable debug : bool.
Variable cfg : nat -> option conf.
Definition at_idx (it : citer) (i : Z) : citer := CIter (m_backend it) i (m_size it).
(* 574-580, made by begin (937-940: pos 0), end (954-958: pos the size) and
   find(idx) (867-870) *)
Definition c_start (b : nat) (pos : Z) : out citer :=
  do i <- narrow debug ptrdiff sizet pos;
  do s <- narrow debug ptrdiff sizet (Z.of_nat (size (cfg b)));
  Val (CIter b i s).
(* 582-592: find(path); the entry tells an index of the config it is in *)
Definition c_find (b : nat) (p : path) : out citer :=
  do s <- narrow debug ptrdiff sizet (Z.of_nat (size (cfg b)));
  let e := at_path (cfg b) p in
  match e_val e with
  | None => Val (CIter b s s)
  | Some _ => do i <- narrow debug ptrdiff sizet (Z.of_nat (e_index e)); Val (CIter b i s)
  end.
(* 594-598 *)
Definition is_dereferencable (it : citer) : bool :=
  match cfg (m_backend it) with None => false | Some _ => (0 <=? m_idx it) && (m_idx it <? m_size it) end.
(* config_entry(m_backend, m_idx), 265-270: the index becomes a size_t *)
Definition c_entry (it : citer) : entry := entry_at (cfg (m_backend it)) (Z.to_nat (cast sizet (m_idx it))).
(* 422-434 *)
Definition c_deref (it : citer) : out entry := requires debug (is_dereferencable it) (Val (c_entry it)).
(* 436-441 *)
Definition c_pre_inc (it : citer) : out citer :=
  requires debug (m_idx it <? tmax ptrdiff) (do i <- assign_sum ptrdiff (m_idx it) 1; Val (at_idx it i)).
(* 443-449 *)
Definition c_post_inc (it : citer) : out (citer * citer) :=
  requires debug (m_idx it <? tmax ptrdiff) (let copy := it in do it' <- c_pre_inc it; Val (it', copy)).
(* 451-456 *)
Definition c_pre_dec (it : citer) : out citer :=
  requires debug (tmin ptrdiff <? m_idx it) (do i <- assign_difference ptrdiff (m_idx it) 1; Val (at_idx it i)).
(* 458-464 *)
Definition c_post_dec (it : citer) : out (citer * citer) :=
  requires debug (tmin ptrdiff <? m_idx it) (let copy := it in do it' <- c_pre_dec it; Val (it', copy)).
(* 466-471 *)
Definition c_add_to (it : citer) (d : Z) : out citer :=
  let update := do i <- assign_sum ptrdiff (m_idx it) d; Val (at_idx it i) in
  if debug then
    do bound <- difference ptrdiff (tmax ptrdiff) d; requires debug (m_idx it <=? bound) update
  else update.
(* 473-478 *)
Definition c_sub_from (it : citer) (d : Z) : out citer :=
  let update := do i <- assign_difference ptrdiff (m_idx it) d; Val (at_idx it i) in
  if debug then
    do bound <- sum ptrdiff (tmin ptrdiff) d; requires debug (bound <=? m_idx it) update
  else update.
(* 480-486, 488-494 *)
Definition c_plus (it : citer) (d : Z) : out citer := let copy := it in c_add_to copy d.
(* 496-502 *)
Definition c_minus (it : citer) (d : Z) : out citer := let copy := it in c_sub_from copy d.
(* 504-510: d - it is it - d *)
Definition c_minus_l (d : Z) (it : citer) : out citer := let copy := it in c_sub_from copy d.
(* 515, 522, 529, 536, 543, 550, 557: the iterators have the same backend *)
Definition same (l r : citer) {A} (k : out A) : out A := requires debug (Nat.eqb (m_backend l) (m_backend r)) k.
(* 512-517 *)
Definition c_diff (l r : citer) : out Z := same l r (difference ptrdiff (m_idx l) (m_idx r)).
(* 563-566 *)
Definition c_has_next (it : citer) : bool := m_idx it <? m_size it.
(* 568-572: the new iterator and the entry; config_entry is made of the old index *)
Definition c_next (it : citer) : out (citer * entry) :=
  requires debug (c_has_next it) (do i <- assign_sum ptrdiff (m_idx it) 1; Val (at_idx it i, c_entry it)).
(* 519-559; there is no operator[] *)
Definition confit : cls citer entry := {|
  start := c_start;
  pre_inc := c_pre_inc; post_inc := c_post_inc; pre_dec := c_pre_dec; post_dec := c_post_dec;
  add_to := c_add_to; sub_from := c_sub_from; plus := c_plus; plus_l := fun d it => c_plus it d;
  minus := c_minus; minus_l := c_minus_l; diff := c_diff;
  eq := fun l r => same l r (Val (m_idx l =? m_idx r)); ne := fun l r => same l r (Val (negb (m_idx l =? m_idx r)));
  lt := fun l r => same l r (Val (m_idx l <? m_idx r)); gt := fun l r => same l r (Val (m_idx r <? m_idx l));
  le := fun l r => same l r (Val (m_idx l <=? m_idx r)); ge := fun l r => same l r (Val (m_idx r <=? m_idx l));
  deref := c_deref; arrow := c_deref; subscript := fun _ _ => Undef |}.

(* for (auto e : c) of user code: it != end, *it, ++it *)
Fixpoint c_loop (fuel : nat) (it last : citer) : out (list entry) :=
  match fuel with
  | O => Undef
  | S f =>
      do go <- ne confit it last;
      if go then do e <- c_deref it; do it' <- c_pre_inc it; do rest <- c_loop f it' last; Val (e :: rest)
      else Val []
  end.
(* while (it.has_next()) it.next() *)
Fixpoint c_drain (fuel : nat) (it : citer) : out (list entry) :=
  match fuel with
  | O => Undef
  | S f => if c_has_next it then do (it', e) <- c_next it; do rest <- c_drain f it'; Val (e :: rest) else Val []
  end.
(* for (auto it = std::make_reverse_iterator(c.end()); it != make_reverse_iterator(c.begin()); ++it) *it:
   the reverse iterator holds a position and reads the element before it *)
Fixpoint c_reverse (fuel : nat) (it first : citer) : out (list entry) :=
  match fuel with
  | O => Undef
  | S f =>
      do go <- ne confit it first;
      if go then
        do p <- c_pre_dec it; do e <- c_deref p;
        do it' <- c_pre_dec it; do rest <- c_reverse f it' first; Val (e :: rest)
      else Val []
  end.
End Conf.

(* ---- programs of user code over iterator variables ---- *)
Inductive op :=
| Start (x b : nat) (p : Z) | Copy (x y : nat)
| PreInc (x : nat) | PostInc (x y : nat) | PreDec (x : nat) | PostDec (x y : nat)      (* y = x++ *)
| AddTo (x : nat) (d : Z) | SubFrom (x : nat) (d : Z)
| Plus (x y : nat) (d : Z) | PlusL (x : nat) (d : Z) (y : nat)                        (* x = y + d, x = d + y *)
| Minus (x y : nat) (d : Z) | MinusL (x : nat) (d : Z) (y : nat)
| Diff (x y : nat) | Eq (x y : nat) | Ne (x y : nat) | Lt (x y : nat) | Gt (x y : nat) | Le (x y : nat) | Ge (x y : nat)
| Deref (x : nat) | Arrow (x : nat) | Subscript (x : nat) (d : Z).
Inductive answer (R : Type) := ANone | AInt (z : Z) | ABool (b : bool) | AVal (r : R).
Arguments ANone {R}. Arguments AInt {R}. Arguments ABool {R}. Arguments AVal {R}.

Definition set {A} (st : nat -> A) (x : nat) (a : A) : nat -> A := fun y => if Nat.eqb y x then a else st y.
Section Run.
Context {I R : Type}.
Variable c : cls I R.
Definition moved (st : nat -> I) (x : nat) (i : out I) : out ((nat -> I) * answer R) :=
  do i' <- i; Val (set st x i', ANone).
Definition told {A} (st : nat -> I) (f : A -> answer R) (a : out A) : out ((nat -> I) * answer R) :=
  do v <- a; Val (st, f v).
Definition step (st : nat -> I) (o : op) : out ((nat -> I) * answer R) :=
  match o with
  | Start x b p => moved st x (start c b p)
  | Copy x y => Val (set st x (st y), ANone)
  | PreInc x => moved st x (pre_inc c (st x))
  | PostInc x y => do (n, o) <- post_inc c (st x); Val (set (set st x n) y o, ANone)
  | PreDec x => moved st x (pre_dec c (st x))
  | PostDec x y => do (n, o) <- post_dec c (st x); Val (set (set st x n) y o, ANone)
  | AddTo x d => moved st x (add_to c (st x) d)
  | SubFrom x d => moved st x (sub_from c (st x) d)
  | Plus x y d => moved st x (plus c (st y) d)
  | PlusL x d y => moved st x (plus_l c d (st y))
  | Minus x y d => moved st x (minus c (st y) d)
  | MinusL x d y => moved st x (minus_l c d (st y))
  | Diff x y => told st AInt (diff c (st x) (st y))
  | Eq x y => told st ABool (eq c (st x) (st y))
  | Ne x y => told st ABool (ne c (st x) (st y))
  | Lt x y => told st ABool (lt c (st x) (st y))
  | Gt x y => told st ABool (gt c (st x) (st y))
  | Le x y => told st ABool (le c (st x) (st y))
  | Ge x y => told st ABool (ge c (st x) (st y))
  | Deref x => told st AVal (deref c (st x))
  | Arrow x => told st AVal (arrow c (st x))
  | Subscript x d => told st AVal (subscript c (st x) d)
  end.
Fixpoint run (st : nat -> I) (os : list op) : out ((nat -> I) * list (answer R)) :=
  match os with
  | [] => Val (st, [])
  | o :: t => do (st', a) <- step st o; do (st2, l) <- run st' t; Val (st2, a :: l)
  end.
End Run.
