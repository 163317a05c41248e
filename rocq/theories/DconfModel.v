(* The copying functions of config in a debug build.
   modules/config/yato/config/private/manual_config_base.cpp:45-338 with the
   two assertions they meet:
     wrap_config_ requires a shared_ptr that is the only owner   (45-49)
     token_iterator::next requires has_next                      (include/yato/token_iterator.h:176-182)
   An assertion that fails ends the program: outcome Stop.  In a release build
   both macros are empty (include/yato/assertion.h).
   The functions below are those of ConfigModel with the assertions put in; the
   shared_ptr given to wrap_config_ is always one just returned by make_shared
   or null, so that use_count is 1 or 0.  resolve_path_ (config.h:374-390) asks
   empty() before each next() and the loops over a config stay in its range, so
   that lookups and loops meet no other assertion (C92 has the iterators). *)
From Coq Require Import Ascii List Bool Arith ZArith.
From Verif Require Import ConfigModel.
Import ListNotations.

Inductive dres (A : Type) := Run (r : res A) | Stop.
Arguments Run {A} _.
Arguments Stop {A}.
Definition dbind {A B} (x : dres A) (f : A -> dres B) : dres B :=
  match x with
  | Stop => Stop
  | Run (Ok a) => f a
  | Run Throw => Run Throw
  | Run UB => Run UB
  | Run Fuel => Run Fuel
  end.
Fixpoint dfold {A B} (f : A -> B -> dres A) (l : list B) (a : A) : dres A :=
  match l with
  | [] => Run (Ok a)
  | x :: t => dbind (f a x) (dfold f t)
  end.
(* YATO_REQUIRES (include/yato/assertion.h) *)
Definition requires {A} (debug ok : bool) (k : dres A) : dres A :=
  if debug && negb ok then Stop else k.

(* 45-49 *)
Definition wrap_config {A} (debug : bool) (c : option conf) (k : value -> dres A) : dres A :=
  requires debug (match c with Some _ => true | None => false end) (k (VConf c)).
(* token_iterator.h:176-182; the token of an exhausted iterator is empty *)
Definition next {A} (debug : bool) (t : list str) (k : str -> dres A) : dres A :=
  requires debug (tok_has_next t) (k (match t with [] => [] | n :: _ => n end)).

(* 72-104 *)
Fixpoint dcopy_impl (debug : bool) (fuel : nat) (deep : bool) (b : option conf) : dres (option conf) :=
  match fuel with
  | 0 => Run Fuel
  | S fuel' =>
      match b with
      | None => Run (Ok None)
      | Some c =>
          dbind (dfold (fun acc e =>
                  dbind (match e_val e with
                         | None => Run (Ok None)
                         | Some v =>
                             if deep && is_conf v
                             then dbind (dcopy_impl debug fuel' true (object_of (Some v)))
                                        (fun c' => wrap_config debug c' (fun w => Run (Ok (Some w))))
                             else Run (Ok (Some (copy_value v)))
                         end)
                        (fun vc => Run (if is_assoc (ckind c) then put acc (e_key e) vc else add acc vc)))
                  (iterate b) (empty_copy b))
                (fun c' => Run (Ok (Some c')))
      end
  end.

(* 106-198 *)
Fixpoint dmerge_impl (debug : bool) (fuel : nat) (l r : option conf) : dres conf :=
  match fuel with
  | 0 => Run Fuel
  | S fuel' =>
      let null_or_assoc b := match b with None => true | Some c => is_assoc (ckind c) end in
      if null_or_assoc l && null_or_assoc r then
        let joint := if multi_b l || multi_b r then Conf KMulti [] else Conf KMap [] in
        let lkeys := ssort (keys l) in
        let rkeys := ssort (keys r) in
        let inter := set_inter lkeys rkeys in
        let common (acc : conf) (k : str) : dres conf :=
          match e_val (at_key l k), e_val (at_key r k) with
          | Some lv, Some rv =>
              match lv, rv with
              | VConf lc, VConf rc =>
                  if assoc_b lc && assoc_b rc
                  then dbind (dmerge_impl debug fuel' lc rc)
                             (fun m => wrap_config debug (Some m) (fun w => Run (put acc k (Some w))))
                  else Run (put acc k (Some (copy_value lv)))
              | _, _ => Run (put acc k (Some (copy_value lv)))
              end
          | _, _ => Run Throw
          end in
        let side (b : option conf) (acc : conf) (k : str) : dres conf :=
          if is_common inter k then common acc k
          else match e_val (at_key b k) with
               | Some v => Run (put acc k (Some (copy_value v)))
               | None => Run (Ok acc)
               end in
        dbind (dfold (side l) lkeys joint) (dfold (side r) rkeys)
      else Run Throw
  end.

(* 200-240 *)
Fixpoint dwith_path_impl (debug : bool) (t : list str) (b : option conf) (v : slot) : dres (conf * slot) :=
  next debug t (fun name =>
  if match b with None => true | Some c => is_assoc (ckind c) end then
    let step (st : conf * slot * bool) (e : entry) : dres (conf * slot * bool) :=
      let '(acc, v, replaced) := st in
      match e_val e with
      | None => Run (Ok st)
      | Some ev =>
          if seqb (e_key e) name then
            match t with
            | _ :: (_ :: _) as rest =>
                dbind (dwith_path_impl debug rest (object_of (e_val e)) v)
                      (fun cv => wrap_config debug (Some (fst cv)) (fun w =>
                                 dbind (Run (put acc name (Some w))) (fun acc' => Run (Ok (acc', snd cv, true)))))
            | _ => dbind (Run (put acc name v)) (fun acc' => Run (Ok (acc', None, true)))
            end
          else dbind (Run (put acc (e_key e) (Some (copy_value ev)))) (fun acc' => Run (Ok (acc', v, replaced)))
      end in
    dbind (dfold step (iterate b) (empty_copy b, v, false))
          (fun st =>
             let '(acc, v, replaced) := st in
             if replaced then Run (Ok (acc, v))
             else match t with
                  | _ :: (_ :: _) as rest =>
                      dbind (dwith_path_impl debug rest None v)
                            (fun cv => wrap_config debug (Some (fst cv)) (fun w =>
                                       dbind (Run (put acc name (Some w))) (fun acc' => Run (Ok (acc', snd cv)))))
                  | _ => dbind (Run (put acc name v)) (fun acc' => Run (Ok (acc', None)))
                  end)
  else Run Throw).

(* 242-277 *)
Fixpoint donly_path_impl (debug : bool) (t : list str) (b : option conf) : dres (option conf) :=
  next debug t (fun name =>
  match b with
  | None => Run (Ok None)
  | Some c =>
      if is_assoc (ckind c) then
        match find (fun e => match e_val e with None => false | Some _ => seqb (e_key e) name end) (iterate b) with
        | None => Run (Ok None)
        | Some e =>
            match t with
            | _ :: (_ :: _) as rest =>
                dbind (donly_path_impl debug rest (object_of (e_val e)))
                      (fun child => match child with
                                    | None => Run (Ok None)
                                    | Some ch => wrap_config debug (Some ch) (fun w =>
                                                 dbind (Run (put (empty_copy b) name (Some w))) (fun x => Run (Ok (Some x))))
                                    end)
            | _ => dbind (Run (put (empty_copy b) (e_key e) (e_val e))) (fun x => Run (Ok (Some x)))
            end
        end
      else Run Throw
  end).

(* 279-310 *)
Fixpoint dwithout_path_impl (debug : bool) (t : list str) (b : option conf) : dres (option conf) :=
  next debug t (fun name =>
  match b with
  | None => Run (Ok None)
  | Some c =>
      if is_assoc (ckind c) then
        let step (acc : conf) (e : entry) : dres conf :=
          match e_val e with
          | None => Run (Ok acc)
          | Some ev =>
              if seqb (e_key e) name then
                match t with
                | _ :: (_ :: _) as rest =>
                    dbind (dwithout_path_impl debug rest (object_of (e_val e)))
                          (fun child => wrap_config debug child (fun w => Run (put acc name (Some w))))
                | _ => Run (Ok acc)
                end
              else Run (put acc (e_key e) (Some (copy_value ev)))
          end in
        dbind (dfold step (iterate b) (empty_copy b)) (fun x => Run (Ok (Some x)))
      else Run Throw
  end).

(* What a program asks a config for (config.cpp:15-48; the second form of
   copying is the builder's, config_builder.cpp:42-61).  The white and black
   lists contain no assertion (312-338). *)
Inductive request :=
| RClone
| RShallow
| RWith (p : path) (v : value)
| RWithout (p : path)
| ROnly (p : path)
| RFilter (white : bool) (names : list str)
| RMerge (other : option conf) (p : priority).

Definition to_null {A} (x : dres A) : dres (option A) := dbind x (fun a => Run (Ok (Some a))).
Definition drun (debug : bool) (o : request) (b : option conf) : dres (option conf) :=
  match o with
  | RClone => dcopy_impl debug (S (nodes_b b)) true b
  | RShallow => dcopy_impl debug 1 false b
  | RWith p v => to_null (dbind (dwith_path_impl debug (tokenize p) b (Some (copy_value v))) (fun cv => Run (Ok (fst cv))))
  | RWithout p => dwithout_path_impl debug (tokenize p) b
  | ROnly p => donly_path_impl debug (tokenize p) b
  | RFilter white names => Run (with_filter b names white)
  | RMerge other PLeft => to_null (dmerge_impl debug (S (nodes_b b)) b other)
  | RMerge other PRight => to_null (dmerge_impl debug (S (nodes_b other)) other b)
  end.
