(* optional and variant in a debug build: the functions of OptModel and VarModel
   with the YATO_REQUIRES of /repo/include/yato/optional.h and variant.h at their
   places (assertion.h 100-106: a condition that does not hold stops the program).
   The simplifications are those of OptModel and VarModel.  The assertions in the
   functions for disabled operations (variant.h 433, 453, 465, 486) are not
   reached: such a call does not compile.  The assertions in the calls of get_unsafe
   and get_cref_ of visit, map, filter and exists (1000, 1010, 1018, 1027) follow a
   test of the same flag and are left out. *)
From Coq Require Import List Bool Arith.
From Verif Require Import LifeModel OptModel VarModel.
Import ListNotations.

Section Stop.
Context {V F : Type}.
(* None: stopped by an assertion *)
Definition D (A : Type) := world V F -> option (out (world V F) A).
Definition lift {A} (m : @M V F A) : D A := fun w => Some (m w).
Definition dbind {A B} (m : D A) (f : A -> D B) : D B := fun w =>
  match m w with
  | None => None
  | Some (Done a w') => f a w'
  | Some (Threw w') => Some (Threw w')
  | Some Undef => Some Undef
  end.
(* assertion.h 100, 104 *)
Definition requires (c : bool) : D unit := fun w => if c then Some (Done tt w) else None.
(* LifeModel.create *)
Definition dcreate (i n : nat) (x : F) (body : D unit) : D unit := fun w =>
  match vars w i with
  | Some _ => Some Undef
  | None =>
      match body (set_var i (Some x) w) with
      | None => None
      | Some r => Some (on_throw (fun _ => r) (vanish i n) w)
      end
  end.
End Stop.
Notation "'do' x <- a ; b" := (dbind a (fun x => b)) (at level 200, x name, a at level 100, b at level 200).
Notation "a ;; b" := (dbind a (fun _ => b)) (at level 199, right associativity).

(* ---- optional.h ---- *)
Section Opt.
Context {V : Type}.
Variable husk : V -> V.
Local Notation D := (@D V bool).
Definition dstored (i : nat) : D bool := lift (is_stored i).
(* optional_storage::construct 70-77, destroy 79-83 *)
Definition sconstruct (i : nat) (v : V) : D unit :=
  do b <- dstored i; requires (negb b) ;; lift (construct i 0 v).
Definition smove_construct (i j : nat) : D unit :=
  do b <- dstored i; requires (negb b) ;; lift (move_construct husk i 0 j 0).
Definition sdestroy (i : nat) : D unit := do b <- dstored i; requires b ;; lift (destroy i 0).
(* construct_ 901-907 *)
Definition dconstruct_ (i : nat) (v : V) : D unit :=
  do b <- dstored i; requires (negb b) ;; sconstruct i v ;; lift (set_fields i true).
Definition dmove_construct_ (i j : nat) : D unit :=
  do b <- dstored i; requires (negb b) ;; smove_construct i j ;; lift (set_fields i true).
(* destroy_ 909-915 *)
Definition ddestroy_ (i : nat) : D unit :=
  do b <- dstored i;
  if b then (sdestroy i ;; lift (set_fields i false)) else lift (ret tt).
(* 933-943 *)
Definition dcopy_constructor_ (i j : nat) : D unit :=
  do b <- dstored j;
  if b then (do v <- lift (read j 0); dconstruct_ i v) else lift (set_fields i false).
(* 945-956 *)
Definition dmove_constructor_ (i j : nat) : D unit :=
  do b <- dstored j;
  if b then (dmove_construct_ i j ;; ddestroy_ j) else lift (set_fields i false).
(* 917-931 *)
Definition dswap_ (i j : nat) : D unit :=
  do b <- dstored i;
  do c <- dstored j;
  if b && c then lift (swap_objects husk i 0 j 0)
  else if c then dmove_constructor_ i j
  else ddestroy_ i.
(* operator= 390-394 and copy_assign_ 958-972; this != &other *)
Definition dcopy_assign (i j : nat) : D unit :=
  requires (negb (i =? j)) ;;
  do b <- dstored i;
  do c <- dstored j;
  if b && c then (do v <- lift (read j 0); lift (assign i 0 v))
  else ddestroy_ i ;;
       if c then (do v <- lift (read j 0); dconstruct_ i v) else lift (ret tt).
(* operator= 400-404 and move_assign_ 974-988 *)
Definition dmove_assign (i j : nat) : D unit :=
  requires (negb (i =? j)) ;;
  do b <- dstored i;
  do c <- dstored j;
  if b && c then lift (move_assign husk i 0 j 0)
  else ddestroy_ i ;;
       if c then dmove_construct_ i j else lift (ret tt).
(* emplace 375-385 *)
Definition demplace (i : nat) (v : V) : D unit := ddestroy_ i ;; dconstruct_ i v.
(* get_unsafe 525-563 of a variable that exists *)
Definition dget_unsafe (j : nat) : D unit := fun w =>
  match vars w j with Some false => None | _ => Some (Done tt w) end.
Definition demplace_from (i j : nat) : D unit :=
  dget_unsafe j ;; ddestroy_ i ;; (do v <- lift (read j 0); dconstruct_ i v).
(* 1014-1021, 1005-1012 *)
Definition dfilter_copy (i j : nat) (p : V -> bool) : D unit :=
  do b <- lift (exists_ j p);
  if b then dcopy_constructor_ i j else lift (ret tt).
Definition dfilter_move (i j : nat) (p : V -> bool) : D unit :=
  do b <- lift (exists_ j p);
  if b then dmove_constructor_ i j else lift (ret tt).
Definition dmap_ (i j : nat) (f : V -> V) : D unit :=
  do b <- dstored j;
  if b then (do v <- lift (read j 0); dconstruct_ i (f v)) else lift (ret tt).

Definition dcreate1 (i : nat) (body : D unit) : D unit := dcreate i 1 false body.
Definition oexec (o : OptModel.op V) : D unit :=
  match o with
  | New i => dcreate1 i (lift (ret tt))
  | OptModel.NewValue i v => dcreate1 i (dconstruct_ i v)
  | OptModel.NewCopy i j => dcreate1 i (dcopy_constructor_ i j)
  | OptModel.NewMove i j => dcreate1 i (dmove_constructor_ i j)
  | NewFilter i j p => dcreate1 i (dfilter_copy i j p)
  | NewFilterMove i j p => dcreate1 i (dfilter_move i j p)
  | NewMap i j f => dcreate1 i (dmap_ i j f)
  | OptModel.Delete i => ddestroy_ i ;; lift (vanish i 1)
  | OptModel.Emplace i v => demplace i v
  | EmplaceFrom i j => demplace_from i j
  | Reset i => ddestroy_ i
  | OptModel.CopyAssign i j => dcopy_assign i j
  | OptModel.MoveAssign i j => dmove_assign i j
  | Swap i j => dswap_ i j
  end.
End Opt.

(* ---- variant.h ---- *)
Section Var.
Context {V : Type}.
Variable husk0 : V -> V.
Local Notation D := (@D (nat * V) vf).
Definition has_index (k : option nat) : bool := match k with Some _ => true | None => false end.
(* 436-449; 438, 439 *)
Definition vcopy_assign (i j : nat) : D unit :=
  requires (negb (i =? j)) ;;
  do f <- lift (fields i);
  requires (has_index (index f)) ;;
  lift (VarModel.copy_assign_ i j).
(* 468-482; 470, 471 *)
Definition vmove_assign (i j : nat) : D unit :=
  requires (negb (i =? j)) ;;
  do f <- lift (fields i);
  requires (has_index (index f)) ;;
  lift (VarModel.move_assign_ husk0 i j).
(* 613-631; 624 *)
Definition vemplace (i t : nat) (v : V) : D unit :=
  do f <- lift (fields i);
  requires (has_index (index f)) ;;
  lift (VarModel.emplace i t v).
(* type() 636-640 in both builds; the answer is the number of the type *)
Definition type_of (i : nat) : @M (nat * V) vf nat := LifeModel.bind (fields i) (fun f => dispatch i (index f) ret).
Definition vtype_of (i : nat) : @GuardModel.D (nat * V) vf nat :=
  do f <- lift (fields i);
  requires (has_index (index f)) ;;
  lift (type_of i).
Definition vexec (o : VarModel.op V) : D unit :=
  match o with
  | Emplace i t v => vemplace i t v
  | CopyAssign i j => vcopy_assign i j
  | MoveAssign i j => vmove_assign i j
  | o => lift (VarModel.exec husk0 o)
  end.
End Var.

(* a history of operations; exceptions are caught *)
Inductive end_ (W : Type) := Finished (w : W) | Stopped | Broken.
Arguments Finished {W}. Arguments Stopped {W}. Arguments Broken {W}.
Fixpoint drun {V F O} (exec : O -> @D V F unit) (l : list O) (w : world V F) : end_ (world V F) :=
  match l with
  | [] => Finished w
  | o :: l' =>
      match exec o w with
      | None => Stopped
      | Some (Done _ w') => drun exec l' w'
      | Some (Threw w') => drun exec l' w'
      | Some Undef => Broken
      end
  end.
