(* The accessors of any and references into it: /repo/include/yato/any.h:58-414.

   C23 models what an any owns, with allocations that fail.  Here the subject is
   access: get, get_or, get_unsafe, get_opt, any_cast, and the references they
   return, which the program keeps in variables of its own and uses later.

   A type as it is written in angle brackets is a numbered object type, perhaps
   const, perhaps a reference.  typeid ignores both.  any_holder<Ty> is another
   class for each of them, and using an object of one class through a pointer
   to another is undefined.

   An address is not used twice, so that a reference to a payload which is gone
   is seen to dangle.  Simplified: allocations and the copy constructors of
   payloads do not throw; a payload that is itself an any is a value like any
   other (C23 has those); types that are not move constructible are left out,
   and so is in_place_type_t of a reference type. *)
From Coq Require Import List Bool Arith.
Import ListNotations.

(* a type as written: [const] base [&] *)
Record sty := MkTy { tconst : bool; tref : bool; tbase : nat }.
Definition plain (t : nat) : sty := MkTy false false t.

(* type_info of typeid(Ty): references and const at the top are ignored *)
Definition typeid (s : sty) : nat := tbase s.

(* std::decay, lines 203-205 *)
Definition decay (s : sty) : sty := plain (tbase s).

(* are any_holder<s> and any_holder<u> the same class? *)
Definition same_class (s u : sty) : bool :=
  Bool.eqb (tconst s) (tconst u) && Bool.eqb (tref s) (tref u) && (tbase s =? tbase u).

(* what a reference of the program refers to *)
Inductive place :=
| Payload (a : nat)       (* m_payload of the holder at address a *)
| Mine (k : nat)          (* an object of the program *)
| Ended.                  (* a temporary of a full expression that is over *)

Section Cast.
Context {V : Type}.
(* which object types are copy assignable *)
Variable copyable : nat -> bool.
(* what moving a value leaves behind *)
Variable husk : V -> V.

Record cworld := MkCast {
  cheap : nat -> option (sty * V);     (* holders: the class and m_payload *)
  cnext : nat;
  cvars : nat -> option (option nat);  (* the anys: m_content *)
  mine : nat -> sty * V;               (* objects of the program that are no anys *)
  refs : nat -> option place           (* references of the program *)
}.

(* what a call shows *)
Inductive seen :=
| Nothing
| Value (v : V)
| Answer (b : bool)
| Maybe (o : option V)
| Exception.

Inductive res := Ok (o : seen) (w : cworld) | Undefined.

Definition put {A} (f : nat -> A) (i : nat) (x : A) : nat -> A := fun j => if j =? i then x else f j.

Definition set_heap (a : nat) (h : option (sty * V)) (w : cworld) : cworld :=
  MkCast (put (cheap w) a h) (cnext w) (cvars w) (mine w) (refs w).
Definition set_any (i : nat) (p : option (option nat)) (w : cworld) : cworld :=
  MkCast (cheap w) (cnext w) (put (cvars w) i p) (mine w) (refs w).
Definition set_ref (r : nat) (p : option place) (w : cworld) : cworld :=
  MkCast (cheap w) (cnext w) (cvars w) (mine w) (put (refs w) r p).
Definition set_mine (k : nat) (x : sty * V) (w : cworld) : cworld :=
  MkCast (cheap w) (cnext w) (cvars w) (put (mine w) k x) (refs w).

(* std::make_unique<any_holder<s>>: lines 204, 217 and 103 *)
Definition make (s : sty) (v : V) (w : cworld) : nat * cworld :=
  (cnext w, MkCast (put (cheap w) (cnext w) (Some (s, v))) (S (cnext w)) (cvars w) (mine w) (refs w)).

(* the destructor of the unique_ptr *)
Definition free (p : option nat) (w : cworld) : cworld :=
  match p with None => w | Some a => set_heap a None w end.

(* any_holder of a copy assignable type can be cloned, lines 70-106, the others
   throw any_copy_error, lines 108-190; a const type is not assignable *)
Definition clonable (s : sty) : bool := negb (tconst s) && copyable (tbase s).

(* any(const any &), lines 208-212: no pointer, or that of a clone *)
Definition copied (p : option nat) (w : cworld) : option (option (option nat * cworld)) :=
  match p with
  | None => Some (Some (None, w))
  | Some a => match cheap w a with
              | None => None
              | Some (s, v) => if clonable s
                               then Some (Some (Some (fst (make s v w)), snd (make s v w)))
                               else Some None
              end
  end.

(* tmp.swap( *this ), and the end of tmp: lines 233-237, 246-251, 280-285 *)
Definition replace (i : nat) (p : option nat) (w : cworld) : res :=
  match cvars w i with
  | None => Undefined
  | Some old => Ok Nothing (free old (set_any i (Some p) w))
  end.

(* the test of get and get_or: std::type_index(typeid(Ty)) == std::type_index(type()),
   and then the static_cast, lines 290-294.  [Some None] when the test fails. *)
Definition checked (i : nat) (s : sty) (w : cworld) : option (option nat) :=
  match cvars w i with
  | None => None
  | Some None => Some None
  | Some (Some a) =>
      match cheap w a with
      | None => None
      | Some (u, _) => if typeid s =? typeid u
                       then (if same_class s u then Some (Some a) else None)
                       else Some None
      end
  end.

(* get_unsafe: no test, lines 331-373 *)
Definition unchecked (i : nat) (s : sty) (w : cworld) : option nat :=
  match cvars w i with
  | Some (Some a) => match cheap w a with
                     | Some (u, _) => if same_class s u then Some a else None
                     | None => None
                     end
  | _ => None
  end.

(* is_type, lines 274-278, with type(), lines 269-272 *)
Definition is_type (i : nat) (s : sty) (w : cworld) : option bool :=
  match cvars w i with
  | None => None
  | Some None => Some false
  | Some (Some a) => match cheap w a with
                     | None => None
                     | Some (u, _) => Some (typeid u =? typeid s)
                     end
  end.

(* reading, and assigning to, what a reference refers to *)
Definition look (p : place) (w : cworld) : option (sty * V) :=
  match p with
  | Payload a => cheap w a
  | Mine k => Some (mine w k)
  | Ended => None
  end.
Definition store (p : place) (x : sty * V) (w : cworld) : cworld :=
  match p with
  | Payload a => set_heap a (Some x) w
  | Mine k => set_mine k x w
  | Ended => w
  end.

Inductive cop :=
| NewEmpty (i : nat)                       (* any i; *)
| NewValue (i : nat) (s : sty) (v : V)     (* any i(e); e an expression of type s *)
| NewInPlace (i : nat) (s : sty) (v : V)   (* auto i = make_any<s>(v); *)
| NewCopy (i j : nat)                      (* any i(j); j a const any *)
| NewMove (i j : nat)                      (* any i(std::move(j)); *)
| Delete (i : nat)
| Swap (i j : nat)
| CopyAssign (i j : nat)                   (* i = j; j a const any *)
| MoveAssign (i j : nat)                   (* i = std::move(j); *)
| AssignValue (i : nat) (s : sty) (v : V)
| Emplace (i : nat) (s : sty) (v : V)
| Clear (i : nat)
| Empty (i : nat)
| IsType (i : nat) (s : sty)
| Get (r i : nat) (s : sty)                (* auto & r = i.get<s>(); *)
| GetOr (r i : nat) (k : nat) (c : bool)   (* auto & r = i.get_or(k); c: i is a const any *)
| GetOrTemp (r i : nat) (t : nat) (v : V)  (* const auto & r = i.get_or(T(v)); *)
| GetUnsafe (r i : nat) (s : sty)          (* auto & r = i.get_unsafe<s>(); *)
| TakeUnsafe (i : nat) (s : sty) (c : bool) (* s x = std::move(i).get_unsafe<s>(); c: i is a const any *)
| GetOpt (i : nat) (s : sty)               (* i.get_opt<s>() *)
| AnyCast (i : nat) (s : sty) (c : bool)   (* any_cast<s>(std::move(i)), or any_cast<s>(i) when c *)
| Read (r : nat)
| Write (r : nat) (v : V)
| MoveOut (r : nat).                       (* T x = std::move(r); *)

Definition cstep (o : cop) (w : cworld) : res :=
  match o with
  | NewEmpty i => match cvars w i with                                          (* line 199 *)
                  | None => Ok Nothing (set_any i (Some None) w)
                  | Some _ => Undefined
                  end
  | NewValue i s v => match cvars w i with                                      (* lines 201-206 *)
                      | None => let (a, w') := make (decay s) v w in Ok Nothing (set_any i (Some (Some a)) w')
                      | Some _ => Undefined
                      end
  | NewInPlace i s v => match cvars w i with                                    (* lines 214-218, 410-414 *)
                        | None => let (a, w') := make s v w in Ok Nothing (set_any i (Some (Some a)) w')
                        | Some _ => Undefined
                        end
  | NewCopy i j => match cvars w i, cvars w j with                              (* lines 208-212 *)
                   | None, Some p => match copied p w with
                                     | None => Undefined
                                     | Some None => Ok Exception w
                                     | Some (Some (q, w')) => Ok Nothing (set_any i (Some q) w')
                                     end
                   | _, _ => Undefined
                   end
  | NewMove i j => match cvars w i, cvars w j with                              (* line 223 *)
                   | None, Some p => Ok Nothing (set_any i (Some p) (set_any j (Some None) w))
                   | _, _ => Undefined
                   end
  | Delete i => match cvars w i with                                            (* line 225 *)
                | Some p => Ok Nothing (free p (set_any i None w))
                | None => Undefined
                end
  | Swap i j => match cvars w i, cvars w j with                                 (* lines 227-231, 393-396 *)
                | Some p, Some q => Ok Nothing (set_any i (Some q) (set_any j (Some p) w))
                | _, _ => Undefined
                end
  | CopyAssign i j => match cvars w i, cvars w j with                           (* lines 233-237 *)
                      | Some _, Some p => match copied p w with
                                          | None => Undefined
                                          | Some None => Ok Exception w
                                          | Some (Some (q, w')) => replace i q w'
                                          end
                      | _, _ => Undefined
                      end
  | MoveAssign i j =>                                                           (* lines 239-244 *)
      match cvars w i, cvars w j with
      | Some p, Some q => replace j None (set_any j (Some p) (set_any i (Some q) w))
      | _, _ => Undefined
      end
  | AssignValue i s v => let (a, w') := make (decay s) v w in replace i (Some a) w'   (* lines 246-251 *)
  | Emplace i s v => let (a, w') := make s v w in replace i (Some a) w'               (* lines 280-285 *)
  | Clear i => replace i None w                                                 (* lines 264-267 *)
  | Empty i => match cvars w i with                                             (* lines 253-262 *)
               | Some p => Ok (Answer (match p with None => true | Some _ => false end)) w
               | None => Undefined
               end
  | IsType i s => match is_type i s w with
                  | Some b => Ok (Answer b) w
                  | None => Undefined
                  end
  | Get r i s => match checked i s w with                                       (* lines 287-307 *)
                 | None => Undefined
                 | Some None => Ok Exception w
                 | Some (Some a) => Ok Nothing (set_ref r (Some (Payload a)) w)
                 end
  | GetOr r i k c =>                                                            (* lines 309-329 *)
      (* on an any that is not const, Ty & is deduced from the argument, which
         makes Ty const if the object is *)
      let s := MkTy (negb c && tconst (fst (mine w k))) false (tbase (fst (mine w k))) in
      match checked i s w with
      | None => Undefined
      | Some None => Ok Nothing (set_ref r (Some (Mine k)) w)
      | Some (Some a) => Ok Nothing (set_ref r (Some (Payload a)) w)
      end
  | GetOrTemp r i t v =>                                                        (* lines 320-329: Ty & takes no rvalue *)
      match checked i (plain t) w with
      | None => Undefined
      | Some None => Ok (Value v) (set_ref r (Some Ended) w)
      | Some (Some a) => match cheap w a with
                         | Some (_, x) => Ok (Value x) (set_ref r (Some (Payload a)) w)
                         | None => Undefined
                         end
      end
  | GetUnsafe r i s => match unchecked i s w with                               (* lines 331-351 *)
                       | Some a => Ok Nothing (set_ref r (Some (Payload a)) w)
                       | None => Undefined
                       end
  | TakeUnsafe i s c =>                                                         (* lines 353-373 *)
      match unchecked i s w with
      | Some a => match cheap w a with
                  | Some (u, v) => if c || tconst u then Ok (Value v) w
                                   else Ok (Value v) (set_heap a (Some (u, husk v)) w)
                  | None => Undefined
                  end
      | None => Undefined
      end
  | GetOpt i s =>                                                               (* lines 376-390 *)
      match is_type i s w with
      | None => Undefined
      | Some false => Ok (Maybe None) w
      | Some true => match unchecked i s w with
                     | Some a => match cheap w a with
                                 | Some (_, v) => Ok (Maybe (Some v)) w
                                 | None => Undefined
                                 end
                     | None => Undefined
                     end
      end
  | AnyCast i s c =>                                                            (* lines 398-408: operand is an lvalue in both *)
      match checked i s w with
      | None => Undefined
      | Some None => Ok Exception w
      | Some (Some a) => match cheap w a with
                         | Some (_, v) => Ok (Value v) w
                         | None => Undefined
                         end
      end
  | Read r => match refs w r with
              | Some p => match look p w with
                          | Some (_, v) => Ok (Value v) w
                          | None => Undefined
                          end
              | None => Undefined
              end
  | Write r v => match refs w r with
                 | Some p => match look p w with
                             | Some (u, _) => if tconst u then Undefined else Ok Nothing (store p (u, v) w)
                             | None => Undefined
                             end
                 | None => Undefined
                 end
  | MoveOut r => match refs w r with
                 | Some p => match look p w with
                             | Some (u, v) => if tconst u then Ok (Value v) w
                                              else Ok (Value v) (store p (u, husk v) w)
                             | None => Undefined
                             end
                 | None => Undefined
                 end
  end.

Fixpoint crun (l : list cop) (w : cworld) : option (list seen * cworld) :=
  match l with
  | [] => Some ([], w)
  | o :: l' => match cstep o w with
               | Undefined => None
               | Ok x w' => match crun l' w' with
                            | Some (xs, w'') => Some (x :: xs, w'')
                            | None => None
                            end
               end
  end.

(* nothing yet, but the objects of the program *)
Definition cstart (m : nat -> sty * V) : cworld := MkCast (fun _ => None) 0 (fun _ => None) m (fun _ => None).

End Cast.
Arguments cworld : clear implicits.
Arguments seen : clear implicits.
Arguments res : clear implicits.
Arguments cop : clear implicits.
