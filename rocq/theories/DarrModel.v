(* The debug build of include/yato/array_nd.h: ArrModel with the assertions of
   include/yato/assertion.h:100-106, which end the program.  Everything else, and what is
   simplified, is in ArrModel; the assertions of a view (C97) are left out, so views are
   taken as in a release build. *)
From Coq Require Import List Bool NArith ZArith.
From Verif Require Import NdModel ArrModel.
Import ListNotations.
Local Open Scope N_scope.

(* where an access leads; Stops: an assertion ends the program *)
Inductive place := Here (x : N) | Throws | Stops.

(* array_nd.h 151-156 and 366-371 sub_array::operator[], 725-736 array_nd_impl::operator[],
   1064-1076 for one dimension.  A wrong number of indices does not compile *)
Fixpoint d_nested (sz ptr : N) (sh is : list N) : place :=
  match sh, is with
  | e :: r, [i] => if i <? e then Here (add64 ptr (mul64 i sz)) else Stops
  | e :: r, i :: is' =>
      if i <? e then d_nested sz (add64 ptr (mul64 (mul64 i (shape_total r)) sz)) r is' else Stops
  | _, _ => Here ptr
  end.
(* 158-165, 373-379, 738-754, 1078-1092 at: the test, then operator[]; const at of one
   dimension (1078-1084) does without *)
Fixpoint d_at (sz ptr : N) (sh is : list N) : place :=
  match sh, is with
  | [e], [i] => if i <? e then d_nested sz ptr [e] [i] else Throws
  | e :: r, i :: is' =>
      if i <? e then
        match d_nested sz ptr [e] [i] with
        | Stops => Stops
        | _ => d_at sz (add64 ptr (mul64 (mul64 i (shape_total r)) sz)) r is'
        end
      else Throws
  | _, _ => Throws
  end.
Definition d_locate (sz : N) (p : path) (a : arr) (is : list N) : place :=
  match p with
  | Brackets => d_nested sz (base a) (shape a) is
  | At => d_at sz (base a) (shape a) is
  | _ => match locate sz p a is with Some x => Here x | None => Throws end
  end.

(* 170-175, 384-389, 759-764, 1098-1103 size(idx).  None: an assertion ends the program *)
Definition d_size (sh : list N) (k : nat) : option N :=
  if (k <? length sh)%nat then nth_error sh k else None.
(* 806-811 stride(idx), values of plain_array_strides (58-68); 1145-1151 for one dimension *)
Fixpoint all_strides (sz : N) (sh : list N) : list N :=
  match sh with
  | [] => []
  | _ :: r => mul64 (shape_total sh) sz :: all_strides sz r
  end.
Definition d_stride (sz : N) (sh : list N) (k : nat) : option N :=
  match sh with
  | [] | [_] => None
  | _ => if (k <? length sh - 1)%nat then nth_error (all_strides sz sh) (S k) else None
  end.

(* ---- programs over several arrays ---- *)
Inductive got (V : Type) := Got (v : V) | NoThrows | NoStops.
Arguments Got {V}. Arguments NoThrows {V}. Arguments NoStops {V}.
Definition d_fetch {V} (sz : N) (arrs : list arr) (m : mem V) (s : src V) : got V :=
  match s with
  | Value v => Got v
  | Elem p a is => match d_locate sz p (the arrs a) is with Here x => Got (m x) | Throws => NoThrows | Stops => NoStops end
  end.
Inductive outcome (V : Type) := Fine (m : mem V) | Caught | Ended | Stuck_.
Arguments Fine {V}. Arguments Caught {V}. Arguments Ended {V}. Arguments Stuck_ {V}.
Definition of_release {V} (r : result V) : outcome V :=
  match r with Done m => Fine m | Thrown => Caught | Stuck => Stuck_ end.
(* the two sides of an assignment are evaluated in some order; source_first is the order of C++17 *)
Definition d_exec {V} (source_first : bool) (sz : N) (arrs : list arr) (o : op V) (m : mem V) : outcome V :=
  match o with
  | Store p a is s =>
      match d_fetch sz arrs m s, d_locate sz p (the arrs a) is with
      | Got v, Here x => Fine (put m x v)
      | Got _, Throws => Caught
      | Got _, Stops => Ended
      | NoThrows, Stops => if source_first then Caught else Ended
      | NoThrows, _ => Caught
      | NoStops, Throws => if source_first then Ended else Caught
      | NoStops, _ => Ended
      end
  | StorePlain a k s =>
      match d_fetch sz arrs m s with
      | Got v => Fine (put m (plain_at sz (the arrs a) k) v)
      | NoThrows => Caught
      | NoStops => Ended
      end
  | _ => of_release (exec sz arrs o m)
  end.
(* which calls threw, whether the program was ended by an assertion, and the memory then *)
Fixpoint d_run {V} (source_first : bool) (sz : N) (arrs : list arr) (os : list (op V)) (m : mem V) : option (list bool * bool * mem V) :=
  match os with
  | [] => Some ([], false, m)
  | o :: r =>
      match d_exec source_first sz arrs o m with
      | Fine m' => option_map (fun x => (false :: fst (fst x), snd (fst x), snd x)) (d_run source_first sz arrs r m')
      | Caught => option_map (fun x => (true :: fst (fst x), snd (fst x), snd x)) (d_run source_first sz arrs r m)
      | Ended => Some ([], true, m)
      | Stuck_ => None
      end
  end.
