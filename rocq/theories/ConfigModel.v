(* Model of the manual configs of the config module,
   /repo/modules/config/yato/config: the four manual back ends, reading by
   index, key and path, iteration, the builder, and the copying functions
   (clone, with_value, without_path, with_only_path, filters, merge).

   Simplifications, valid for every definition below:
   - a back end is immutable once a config owns it (config holds
     shared_ptr<const config_backend>, config_builder::create gives up its
     pointer), so sharing of sub-configs is not observable and configs are
     modelled as trees;
   - a release build is modelled: YATO_ASSERT and YATO_REQUIRES do nothing
     (assertion.h), in particular the use_count check of wrap_config_;
   - a double is represented by its bit pattern, never computed with;
   - lengths and indices are unbounded natural numbers;
   - only the manual back ends are modelled, not json/yaml/xml/ini/cmd. *)
From Coq Require Import Ascii List Bool Arith NArith ZArith.
From Verif Require Import TokenModel.
Import ListNotations.

Definition str := list ascii.

(* std::less<std::string>: bytes compared as unsigned char, then lengths *)
Fixpoint scmp (a b : str) : comparison :=
  match a, b with
  | [], [] => Eq
  | [], _ :: _ => Lt
  | _ :: _, [] => Gt
  | x :: s, y :: t => match N.compare (N_of_ascii x) (N_of_ascii y) with
                      | Eq => scmp s t
                      | c => c
                      end
  end.
Definition sltb (a b : str) : bool := match scmp a b with Lt => true | _ => false end.
(* operator==(std::string, std::string) *)
Definition seqb (a b : str) : bool := if list_eq_dec ascii_dec a b then true else false.

(* config_backend.h:38-46, 248-256; C is the pointee of backend_ptr_t, which
   may be null.  The void alternative is never produced by manual_value
   (private/manual_value.h:46-49). *)
Inductive val_ (C : Type) :=
| VInt (z : Z)
| VReal (bits : N)
| VBool (b : bool)
| VStr (s : str)
| VConf (c : option C).
Arguments VInt {C}. Arguments VReal {C}. Arguments VBool {C}. Arguments VStr {C}. Arguments VConf {C}.

(* private/manual_map.h, manual_multimap.h, manual_ordered_map.h, manual_array.h *)
Inductive kind := KMap | KMulti | KOrdered | KArray.

(* The stored sequence: std::map and std::multimap in key order, the vector of
   records of the ordered map, the vector of the array with empty keys (its
   do_find(index) reports the empty key, manual_array.h:75-82).  The
   unique_ptr<config_value> of an entry may be null. *)
Inductive conf := Conf (k : kind) (es : list (str * option (val_ conf))).
Definition value := val_ conf.
Definition slot := option value.
Definition ckind (c : conf) : kind := match c with Conf k _ => k end.
Definition centries (c : conf) : list (str * slot) := match c with Conf _ es => es end.

Inductive res (A : Type) := Ok (a : A) | Throw | UB | Fuel.
Arguments Ok {A}. Arguments Throw {A}. Arguments UB {A}. Arguments Fuel {A}.
Definition bind {A B} (r : res A) (f : A -> res B) : res B :=
  match r with Ok a => f a | Throw => Throw | UB => UB | Fuel => Fuel end.
Fixpoint foldM {A B} (f : A -> B -> res A) (l : list B) (a : A) : res A :=
  match l with [] => Ok a | x :: t => bind (f a x) (foldM f t) end.

(* do_has_property: manual_map.h:60-68, manual_multimap.h:60-69,
   manual_ordered_map.h:67-76, manual_array.h:65-73; config.h:658-699 *)
Definition is_assoc (k : kind) : bool := match k with KArray => false | _ => true end.
Definition is_multi (k : kind) : bool := match k with KMulti => true | _ => false end.
Definition is_ordered (k : kind) : bool := match k with KOrdered | KArray => true | _ => false end.

(* ---- back end mutation ---- *)
(* std::map::insert_or_assign, manual_map.h:35-38 *)
Fixpoint map_put (k : str) (v : slot) (l : list (str * slot)) : list (str * slot) :=
  match l with
  | [] => [(k, v)]
  | (k', v') :: t => match scmp k k' with
                     | Lt => (k, v) :: l
                     | Eq => (k', v) :: t
                     | Gt => (k', v') :: map_put k v t
                     end
  end.
(* std::multimap::emplace: at the upper bound of the equal keys,
   manual_multimap.h:35-38 *)
Fixpoint multi_put (k : str) (v : slot) (l : list (str * slot)) : list (str * slot) :=
  match l with
  | [] => [(k, v)]
  | (k', v') :: t => match scmp k k' with
                     | Lt => (k, v) :: l
                     | _ => (k', v') :: multi_put k v t
                     end
  end.
(* find_if then assign, else emplace_back; manual_ordered_map.h:37-46 *)
Fixpoint ord_put (k : str) (v : slot) (l : list (str * slot)) : list (str * slot) :=
  match l with
  | [] => [(k, v)]
  | (k', v') :: t => if seqb k' k then (k', v) :: t else (k', v') :: ord_put k v t
  end.
Definition put (c : conf) (k : str) (v : slot) : res conf :=
  match c with
  | Conf KMap es => Ok (Conf KMap (map_put k v es))
  | Conf KMulti es => Ok (Conf KMulti (multi_put k v es))
  | Conf KOrdered es => Ok (Conf KOrdered (ord_put k v es))
  | Conf KArray _ => Throw                                    (* manual_array.h:36-39 *)
  end.
(* erase(name): all equal keys of the map and multimap (manual_map.h:40-43,
   manual_multimap.h:40-43) *)
Definition key_erase (k : str) (l : list (str * slot)) : list (str * slot) :=
  filter (fun e => negb (seqb (fst e) k)) l.
(* manual_ordered_map.h:48-54: the first match only *)
Fixpoint ord_erase (k : str) (l : list (str * slot)) : list (str * slot) :=
  match l with
  | [] => []
  | (k', v') :: t => if seqb k' k then t else (k', v') :: ord_erase k t
  end.
Definition remove (c : conf) (k : str) : res conf :=
  match c with
  | Conf KMap es => Ok (Conf KMap (key_erase k es))
  | Conf KMulti es => Ok (Conf KMulti (key_erase k es))
  | Conf KOrdered es => Ok (Conf KOrdered (ord_erase k es))
  | Conf KArray _ => Throw                                    (* manual_array.h:41-44 *)
  end.
(* manual_array.h:46-49; the maps throw (manual_map.h:45-48 etc.) *)
Definition add (c : conf) (v : slot) : res conf :=
  match c with
  | Conf KArray es => Ok (Conf KArray (es ++ [([], v)]))
  | _ => Throw
  end.
(* manual_array.h:51-54: pop_back of an empty vector is undefined *)
Definition pop (c : conf) : res conf :=
  match c with
  | Conf KArray [] => UB
  | Conf KArray es => Ok (Conf KArray (removelast es))
  | _ => Throw
  end.

(* ---- reading ---- *)
Definition csize (c : conf) : nat := length (centries c).
(* do_find(size_t): manual_map.h:70-78 etc.; no_index_result config_backend.cpp:22 *)
Definition find_index (c : conf) (i : nat) : str * slot :=
  match nth_error (centries c) i with
  | Some e => e
  | None => ([], None)
  end.
(* do_find(string): std::map::find, multimap lower_bound and find_if all give
   the first entry with that key and its distance from the beginning
   (manual_map.h:80-88, manual_multimap.h:81-89, manual_ordered_map.h:88-96);
   no_key_result is index 0, null (config_backend.cpp:24); the array never
   finds (manual_array.h:84-87) *)
Fixpoint find_from (i : nat) (k : str) (l : list (str * slot)) : nat * slot :=
  match l with
  | [] => (0, None)
  | (k', v) :: t => if seqb k' k then (i, v) else find_from (S i) k t
  end.
Definition find_key (c : conf) (k : str) : nat * slot :=
  if is_assoc (ckind c) then find_from 0 k (centries c) else (0, None).

(* config_backend::find_result, config_backend.h:330-364 *)
Record entry := Entry { e_index : nat; e_key : str; e_val : slot }.
Definition no_entry : entry := Entry 0 [] None.
Definition entry_at (b : option conf) (i : nat) : entry :=
  match b with
  | None => Entry i [] None
  | Some c => let (k, v) := find_index c i in Entry i k v
  end.
(* config_value::get<backend_ptr_t>(stored_type::config), config_backend.h:297-305,
   with value_converter::apply (utility.cpp:118-135): only config -> config is
   registered for the destination type config *)
Definition as_conf (v : value) : option (option conf) :=
  match v with VConf c => Some c | _ => None end.
(* config_entry::object, config.h:1273-1277: null config unless it is a config *)
Definition object_of (s : slot) : option conf :=
  match s with
  | Some v => match as_conf v with Some c => c | None => None end
  | None => None
  end.

(* conf::path, path.h:45-105.  A tokenizer is represented by the tokens it
   still has to deliver; next() of an exhausted one gives the empty token
   (TokenModel, theorem C03_next_past_the_end). *)
Record path := Path { p_str : str; p_sep : ascii }.
Definition default_sep : ascii := "."%char.
Definition tokenize (p : path) : list str :=
  match tokens ascii (Ascii.eqb (p_sep p)) (p_str p) true with
  | Some l => l
  | None => []
  end.
Definition tok_has_next (t : list str) : bool := match t with [] => false | _ => true end.
(* path.h:95-98 *)
Definition is_root (p : path) : bool := forallb (Ascii.eqb (p_sep p)) (p_str p).

(* config_entry::resolve_path_, config.h:371-390 *)
Fixpoint resolve (b : option conf) (t : list str) : entry :=
  match t with
  | [] => no_entry
  | n :: rest =>
      match b with
      | None => no_entry
      | Some c =>
          let (i, v) := find_key c n in
          if tok_has_next rest
          then resolve (object_of v) rest           (* value_as<backend_ptr_t>().get_or(nullptr) *)
          else Entry i n v
      end
  end.
(* config::at(path), config.h:839-843 *)
Definition at_path (b : option conf) (p : path) : entry := resolve b (tokenize p).
(* an std::string converts to a path with the default separator, path.h:63-65 *)
Definition at_key (b : option conf) (k : str) : entry := at_path b (Path k default_sep).

Definition size (b : option conf) : nat := match b with None => 0 | Some c => csize c end.
(* begin/end/++/!=/* of config_iterator, config.h:399-602, 918-954: the loop
   for (auto entry : c) *)
Definition iterate (b : option conf) : list entry := map (entry_at b) (seq 0 (size b)).
(* config::find(path), config.h:857-861 and the iterator constructor 582-592:
   the index the iterator holds *)
Definition find_pos (b : option conf) (p : path) : nat :=
  let e := at_path b p in
  match e_val e with None => size b | Some _ => e_index e end.
(* config_backend::do_enumerate_keys, config_backend.cpp:36-50; config.h:722-727 *)
Definition keys (b : option conf) : list str :=
  match b with
  | None => []
  | Some c => if is_assoc (ckind c) then map (fun i => fst (find_index c i)) (seq 0 (csize c)) else []
  end.

(* ---- private/manual_config_base.cpp ---- *)
Definition is_conf (v : value) : bool := match v with VConf _ => true | _ => false end.
Definition assoc_b (b : option conf) : bool := match b with None => false | Some c => is_assoc (ckind c) end.
Definition multi_b (b : option conf) : bool := match b with None => false | Some c => is_multi (ckind c) end.

(* 22-45: the value of a manual value is never void, so the copy never fails *)
Definition copy_value (v : value) : value := v.

(* 53-70 *)
Definition empty_copy (b : option conf) : conf :=
  match b with
  | None => Conf KMap []
  | Some c => if is_multi (ckind c) then Conf KMulti []
              else if is_assoc (ckind c)
                   then (if is_ordered (ckind c) then Conf KOrdered [] else Conf KMap [])
                   else Conf KArray []
  end.

(* 72-104 *)
Fixpoint copy_impl (fuel : nat) (deep : bool) (b : option conf) : res (option conf) :=
  match fuel with
  | 0 => Fuel
  | S fuel' =>
      match b with
      | None => Ok None
      | Some c =>
          bind (foldM (fun acc e =>
                  bind (match e_val e with
                        | None => Ok None
                        | Some v =>
                            if deep && is_conf v
                            then bind (copy_impl fuel' true (object_of (Some v)))
                                      (fun c' => Ok (Some (VConf c')))          (* wrap_config_ *)
                            else Ok (Some (copy_value v))
                        end)
                       (fun vc => if is_assoc (ckind c) then put acc (e_key e) vc else add acc vc))
                  (iterate b) (empty_copy b))
               (fun c' => Ok (Some c'))
      end
  end.

(* std::sort of strings; equal strings are indistinguishable *)
Fixpoint sinsert (k : str) (l : list str) : list str :=
  match l with
  | [] => [k]
  | h :: t => if sltb h k then h :: sinsert k t else k :: l
  end.
Definition ssort (l : list str) : list str := fold_right sinsert [] l.
(* std::set_intersection *)
Fixpoint set_inter (l1 : list str) : list str -> list str :=
  fix go l2 :=
    match l1, l2 with
    | [], _ | _, [] => []
    | a :: t1, b :: t2 => match scmp a b with
                          | Lt => set_inter t1 l2
                          | Gt => go t2
                          | Eq => a :: set_inter t1 t2
                          end
    end.
(* std::lower_bound *)
Fixpoint lower_bound (l : list str) (k : str) : list str :=
  match l with
  | [] => []
  | h :: t => if sltb h k then lower_bound t k else l
  end.
(* 124-127 *)
Definition is_common (inter : list str) (k : str) : bool :=
  match lower_bound inter k with [] => false | h :: _ => seqb k h end.

(* 106-198 *)
Fixpoint merge_impl (fuel : nat) (l r : option conf) : res conf :=
  match fuel with
  | 0 => Fuel
  | S fuel' =>
      let null_or_assoc b := match b with None => true | Some c => is_assoc (ckind c) end in
      if null_or_assoc l && null_or_assoc r then
        let joint := if multi_b l || multi_b r then Conf KMulti [] else Conf KMap [] in
        let lkeys := ssort (keys l) in
        let rkeys := ssort (keys r) in
        let inter := set_inter lkeys rkeys in
        let common (acc : conf) (k : str) : res conf :=                        (* 129-159 *)
          match e_val (at_key l k), e_val (at_key r k) with
          | Some lv, Some rv =>
              match lv, rv with
              | VConf lc, VConf rc =>
                  if assoc_b lc && assoc_b rc
                  then bind (merge_impl fuel' lc rc) (fun m => put acc k (Some (VConf (Some m))))
                  else put acc k (Some (copy_value lv))
              | _, _ => put acc k (Some (copy_value lv))
              end
          | _, _ => Throw
          end in
        let side (b : option conf) (acc : conf) (k : str) : res conf :=        (* 161-193 *)
          if is_common inter k then common acc k
          else match e_val (at_key b k) with
               | Some v => put acc k (Some (copy_value v))
               | None => Ok acc
               end in
        bind (foldM (side l) lkeys joint) (foldM (side r) rkeys)
      else Throw
  end.

(* 200-240.  The unique_ptr is threaded through: once moved from it is null. *)
Fixpoint with_path_impl (t : list str) (b : option conf) (v : slot) : res (conf * slot) :=
  let name := match t with [] => [] | n :: _ => n end in
  if match b with None => true | Some c => is_assoc (ckind c) end then
    let step (st : conf * slot * bool) (e : entry) : res (conf * slot * bool) :=
      let '(acc, v, replaced) := st in
      match e_val e with
      | None => Ok st
      | Some ev =>
          if seqb (e_key e) name then
            match t with
            | _ :: (_ :: _) as rest =>
                bind (with_path_impl rest (object_of (e_val e)) v)
                     (fun cv => bind (put acc name (Some (VConf (Some (fst cv)))))
                                     (fun acc' => Ok (acc', snd cv, true)))
            | _ => bind (put acc name v) (fun acc' => Ok (acc', None, true))
            end
          else bind (put acc (e_key e) (Some (copy_value ev))) (fun acc' => Ok (acc', v, replaced))
      end in
    bind (foldM step (iterate b) (empty_copy b, v, false))
         (fun st =>
            let '(acc, v, replaced) := st in
            if replaced then Ok (acc, v)
            else match t with
                 | _ :: (_ :: _) as rest =>
                     bind (with_path_impl rest None v)
                          (fun cv => bind (put acc name (Some (VConf (Some (fst cv)))))
                                          (fun acc' => Ok (acc', snd cv)))
                 | _ => bind (put acc name v) (fun acc' => Ok (acc', None))
                 end)
  else Throw.

(* 242-277: the loop breaks at the first entry with that key *)
Fixpoint only_path_impl (t : list str) (b : option conf) : res (option conf) :=
  let name := match t with [] => [] | n :: _ => n end in
  match b with
  | None => Ok None
  | Some c =>
      if is_assoc (ckind c) then
        match find (fun e => match e_val e with None => false | Some _ => seqb (e_key e) name end) (iterate b) with
        | None => Ok None
        | Some e =>
            match t with
            | _ :: (_ :: _) as rest =>
                bind (only_path_impl rest (object_of (e_val e)))
                     (fun child => match child with
                                   | None => Ok None
                                   | Some ch => bind (put (empty_copy b) name (Some (VConf (Some ch)))) (fun x => Ok (Some x))
                                   end)
            | _ => bind (put (empty_copy b) (e_key e) (e_val e)) (fun x => Ok (Some x))
            end
        end
      else Throw
  end.

(* 279-310 *)
Fixpoint without_path_impl (t : list str) (b : option conf) : res (option conf) :=
  let name := match t with [] => [] | n :: _ => n end in
  match b with
  | None => Ok None
  | Some c =>
      if is_assoc (ckind c) then
        let step (acc : conf) (e : entry) : res conf :=
          match e_val e with
          | None => Ok acc
          | Some ev =>
              if seqb (e_key e) name then
                match t with
                | _ :: (_ :: _) as rest =>
                    bind (without_path_impl rest (object_of (e_val e)))
                         (fun child => put acc name (Some (VConf child)))
                | _ => Ok acc
                end
              else put acc (e_key e) (Some (copy_value ev))
          end in
        bind (foldM step (iterate b) (empty_copy b)) (fun x => Ok (Some x))
      else Throw
  end.

(* 312-338 *)
Definition with_filter (b : option conf) (names : list str) (white : bool) : res (option conf) :=
  match b with
  | None => Ok None
  | Some c =>
      if is_assoc (ckind c) then
        bind (foldM (fun acc e =>
                match e_val e with
                | None => Ok acc
                | Some ev =>
                    if eqb white (existsb (seqb (e_key e)) names)
                    then put acc (e_key e) (Some (copy_value ev)) else Ok acc
                end)
                (iterate b) (empty_copy b))
             (fun x => Ok (Some x))
      else Throw
  end.

(* fuel that always suffices: the number of back ends in the tree *)
Fixpoint nodes (c : conf) : nat :=
  match c with
  | Conf _ es =>
      S ((fix go (l : list (str * option (val_ conf))) : nat :=
            match l with
            | [] => 0
            | (_, Some (VConf (Some c'))) :: t => nodes c' + go t
            | _ :: t => go t
            end) es)
  end.
Definition nodes_b (b : option conf) : nat := match b with None => 0 | Some c => nodes c end.

(* config.cpp:15-48 and manual_config_base.cpp:343-393 *)
Definition clone (b : option conf) : res (option conf) := copy_impl (S (nodes_b b)) true b.
Definition shallow_copy (b : option conf) : res (option conf) := copy_impl 1 false b.
Definition with_value (b : option conf) (p : path) (v : value) : res conf :=
  bind (with_path_impl (tokenize p) b (Some (copy_value v))) (fun cv => Ok (fst cv)).
Definition without_path (b : option conf) (p : path) : res (option conf) := without_path_impl (tokenize p) b.
Definition with_only_path (b : option conf) (p : path) : res (option conf) := only_path_impl (tokenize p) b.
Definition with_whitelist (b : option conf) (names : list str) := with_filter b names true.
Definition with_blacklist (b : option conf) (names : list str) := with_filter b names false.
Inductive priority := PLeft | PRight.
Definition merged_with (l r : option conf) (p : priority) : res conf :=
  match p with
  | PLeft => merge_impl (S (nodes_b l)) l r
  | PRight => merge_impl (S (nodes_b r)) r l
  end.

(* ---- config_builder.cpp ---- *)
(* m_impl->conf; None after create() or for a null config *)
Inductive op :=
| OPut (k : str) (v : value)
| ORemove (k : str)
| OAdd (v : value)
| OPop.
(* A null config passed to put or add is ignored (171-177, 268-274); all other
   overloads store the widened value.  checked_handle_ (90-96) throws when
   there is no config. *)
Definition apply_op (b : option conf) (o : op) : res (option conf) :=
  match o with
  | OPut _ (VConf None) | OAdd (VConf None) => Ok b
  | _ => match b with
         | None => Throw
         | Some c => bind (match o with
                           | OPut k v => put c k (Some v)
                           | ORemove k => remove c k
                           | OAdd v => add c (Some v)
                           | OPop => pop c
                           end) (fun c' => Ok (Some c'))
         end
  end.
Definition build (k : kind) (ops : list op) : res (option conf) := foldM apply_op ops (Some (Conf k [])).
