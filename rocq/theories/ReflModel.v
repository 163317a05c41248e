(* Reflection of class members, /repo/include/yato/reflection.h.
   The macros are modelled as the compiler sees them: each adds overloads to the class,
   numbered by the type meta::number<k> of their parameter, and number<k> derives from
   number<k-1> (meta.h:40-51).  Names and types are numbers; std::map orders names. *)
From Coq Require Import List Bool Arith.
Import ListNotations.

Inductive decl := Var (name type : nat) (public : bool) | Method (name type : nat).
Inductive info := DataInfo (name type index : nat) | FuncInfo (name type index : nat).   (* reflection.h:82-153 *)
Definition MAX_COUNTER_VALUE : nat := 255.                                           (* reflection.h:32 *)

(* a call with number<n>: of the overloads for number<k>, k <= n, the most derived *)
Fixpoint resolve {A} (n : nat) (os : list (nat * A)) : option (nat * A) :=
  match os with
  | [] => None
  | (k, x) :: t =>
      match resolve n t with
      | Some (j, y) => if (k <=? n) && (j <? k) then Some (k, x) else Some (j, y)
      | None => if k <=? n then Some (k, x) else None
      end
  end.

Record class := Class {
  counters  : list (nat * nat);            (* _yato_cs_meta_counter *)
  registers : list (nat * option info);    (* _yato_runtime_register; None for the base *)
  datas     : list (nat * list info);      (* _yato_data_members_list_getter *)
  funcs     : list (nat * list info);      (* _yato_member_functions_list_getter *)
  tags      : list (nat * bool);           (* _yato_access_tag, public or not *)
  var_names : list nat;                    (* _yato_reflected_idx_##Var *)
  fun_names : list nat                     (* _yato_reflected_fidx_##Method *)
}.
(* YATO_REFLECT_CLASS, reflection.h:304-323 *)
Definition class0 : class := Class [(1, 1)] [(0, None)] [(0, [])] [(0, [])] [] [] [].
Definition mem (n : nat) (l : list nat) : bool := existsb (Nat.eqb n) l.
(* YATO_REFLECT_VAR, reflection.h:328-347, and YATO_REFLECT_METHOD, 362-372.  A member
   function cannot be declared twice in a class, which refuses a second counter with the
   same value; nor can a static member, which refuses a second reflection of a name.
   The list of METHOD starts with the data members, as in line 372. *)
Definition declare (d : decl) (c : class) : option class :=
  match resolve MAX_COUNTER_VALUE (counters c) with
  | None => None
  | Some (_, i) =>
    if mem (i + 1) (map fst (counters c)) then None
    else match resolve (i - 1) (datas c) with
    | None => None
    | Some (_, l) =>
      match d with
      | Var n t p =>
        if mem n (var_names c) then None
        else Some (Class ((i + 1, i + 1) :: counters c) ((i, Some (DataInfo n t i)) :: registers c)
                    ((i, l ++ [DataInfo n t i]) :: datas c) (funcs c) ((i, p) :: tags c) (n :: var_names c) (fun_names c))
      | Method n t =>
        if mem n (fun_names c) then None
        else Some (Class ((i + 1, i + 1) :: counters c) (registers c) (datas c)
                    ((i, l ++ [FuncInfo n t i]) :: funcs c) (tags c) (var_names c) (n :: fun_names c))
      end
    end
  end.
Fixpoint compile_from (ds : list decl) (c : class) : option class :=
  match ds with [] => Some c | d :: t => match declare d c with Some c' => compile_from t c' | None => None end end.
Definition compile (ds : list decl) : option class := compile_from ds class0.

(* reflection.h:165-166 *)
Definition data_members_list (c : class) : list info :=
  match resolve MAX_COUNTER_VALUE (datas c) with Some (_, l) => l | None => [] end.
Definition member_functions_list (c : class) : list info :=
  match resolve MAX_COUNTER_VALUE (funcs c) with Some (_, l) => l | None => [] end.
(* is_public, reflection.h:268-276: the tag of the index must exist and be accessible *)
Definition is_public (c : class) (i : nat) : bool := existsb (fun '(k, p) => (k =? i) && p) (tags c).

(* ---- the manager, reflection.h:160-241 ---- *)
Definition info_name (i : info) : nat := match i with DataInfo n _ _ | FuncInfo n _ _ => n end.
(* std::map: by name *)
Fixpoint insert (i : info) (l : list info) : list info :=
  match l with
  | [] => [i]
  | j :: t => if info_name i <? info_name j then i :: j :: t else j :: insert i t
  end.
Record manager := Manager { members_ : list info; inited : bool }.
Definition manager0 : manager := Manager [] false.
Definition find (n : nat) (m : manager) : option info := List.find (fun i => info_name i =? n) (members_ m).

(* memory: the number of registrations whose allocations still succeed, if there is a
   limit.  Names are taken to fit into a string without an allocation: name() is noexcept
   (104, 143), so a longer name for which there is no memory ends the program. *)
Definition memory := option nat.
Definition take (mem : memory) : option memory :=
  match mem with None => Some None | Some 0 => None | Some (S k) => Some (Some k) end.
Inductive outcome (A : Type) := Returned (x : A) | Threw | OutOfFuel.
Arguments Returned {A} x. Arguments Threw {A}. Arguments OutOfFuel {A}.
(* _yato_runtime_register(number<n>), reflection.h:339-345: first the lower ones, then
   _register_member, 231-237 *)
Fixpoint runtime_register (fuel n : nat) (c : class) (mem : memory) (m : manager) : manager * memory * outcome unit :=
  match fuel with
  | 0 => (m, mem, OutOfFuel)
  | S fuel' =>
    match resolve n (registers c) with
    | None => (m, mem, OutOfFuel)
    | Some (_, None) => (m, mem, Returned tt)
    | Some (k, Some i) =>
        match runtime_register fuel' (k - 1) c mem m with
        | (m, mem, Returned _) =>
            match take mem with
            | None => (m, mem, Threw)
            | Some mem =>
                match find (info_name i) m with
                | Some _ => (m, mem, Threw)
                | None => (Manager (insert i (members_ m)) (inited m), mem, Returned tt)
                end
            end
        | r => r
        end
    end
  end.
(* _check_inited, reflection.h:177-183 *)
Definition check_inited (c : class) (mem : memory) (m : manager) : manager * memory * outcome unit :=
  if inited m then (m, mem, Returned tt)
  else match runtime_register (S MAX_COUNTER_VALUE) MAX_COUNTER_VALUE c mem m with
       | (m, mem, Returned _) => (Manager (members_ m) true, mem, Returned tt)
       | r => r
       end.
(* members, reflection.h:209-213; get_by_name, 218-225 *)
Definition members (c : class) (mem : memory) (m : manager) : manager * outcome (list info) :=
  match check_inited c mem m with
  | (m, _, Returned _) => (m, Returned (members_ m))
  | (m, _, Threw) => (m, Threw)
  | (m, _, OutOfFuel) => (m, OutOfFuel)
  end.
Definition get_by_name (c : class) (n : nat) (mem : memory) (m : manager) : manager * outcome (option info) :=
  match check_inited c mem m with
  | (m, _, Returned _) => (m, Returned (find n m))
  | (m, _, Threw) => (m, Threw)
  | (m, _, OutOfFuel) => (m, OutOfFuel)
  end.
Inductive query := Members (mem : memory) | GetByName (n : nat) (mem : memory).
Inductive answer := AList (o : outcome (list info)) | AInfo (o : outcome (option info)).
Definition ask (c : class) (q : query) (m : manager) : manager * answer :=
  match q with
  | Members mem => let (m, o) := members c mem m in (m, AList o)
  | GetByName n mem => let (m, o) := get_by_name c n mem m in (m, AInfo o)
  end.
Fixpoint ask_all (c : class) (qs : list query) (m : manager) : list answer :=
  match qs with [] => [] | q :: t => let (m, a) := ask c q m in a :: ask_all c t m end.

(* ---- access to members: an object is the values of its members, with their types ---- *)
Definition object := nat -> option (nat * nat).       (* name to type and value *)
(* ptr, reflection.h:109-112, and as_ptr for other than classes, 72-75: the type is not
   looked at.  Reading through a pointer to another type is undefined (None). *)
Definition as_ptr (t : nat) (i : info) : nat * nat := (info_name i, t).
Definition read (p : nat * nat) (o : object) : option nat :=
  match o (fst p) with Some (t, v) => if t =? snd p then Some v else None | None => None end.
