(* Conversion of standard containers, optionals and smart pointers to configs and
   back: /repo/modules/config/yato/config/containers.h and smart_pointers.h, with
   the conversion functions of config.h and config_builder.h they go through.

   Simplifications: a release build (narrow_cast wraps, assertions do nothing);
   keys of maps are std::string in the default order; float and long double are
   left out; memory never runs out.  The conversions between doubles and other
   stored types are parameters, as in ConvertModel. *)
From Coq Require Import Ascii List Bool Arith NArith ZArith.
From Verif Require Import ConvertModel ConfigModel.
Import ListNotations.
Local Open Scope nat_scope.

(* the outcome of a call: a result, a thrown config_error, a thrown
   bad_optional_access, or undefined behaviour *)
Inductive out (A : Type) := Val (a : A) | Error | BadAccess | Undefined.
Arguments Val {A}. Arguments Error {A}. Arguments BadAccess {A}. Arguments Undefined {A}.
Definition obind {A B} (r : out A) (f : A -> out B) : out B :=
  match r with Val a => f a | Error => Error | BadAccess => BadAccess | Undefined => Undefined end.
Fixpoint ofold {A B} (f : A -> B -> out A) (l : list B) (a : A) : out A :=
  match l with [] => Val a | x :: t => obind (f a x) (ofold f t) end.
(* manual_config_base reports errors as config_error; Fuel does not occur for put
   and add *)
Definition lift {A} (r : res A) : out A :=
  match r with Ok a => Val a | Throw => Error | _ => Undefined end.

(* ---- types ---- *)
Inductive wrapper := StdOptional | YatoOptional | UniquePtr | SharedPtr.
(* the types Ty_ with a config_value_trait: config_backend.h:148-237,
   config.h:1257-1262, containers.h:118-144, smart_pointers.h:70-82.
   The integer types are given by sign and width. *)
Inductive ty :=
| TInt (signed : bool) (bits : Z)
| TDouble
| TBool
| TStr
| TConf
| TVec (t : ty)
| TMap (t : ty)
| TWrap (w : wrapper) (t : ty).
(* the values of a type; a map is its sequence of entries in the order of keys,
   an empty optional or null pointer is None *)
Fixpoint den (t : ty) : Type :=
  match t with
  | TInt _ _ => Z
  | TDouble => N
  | TBool => bool
  | TStr => str
  | TConf => option conf
  | TVec t => list (den t)
  | TMap t => list (str * den t)
  | TWrap _ t => option (den t)
  end.
(* fetch_type, same lines *)
Fixpoint fetch_type (t : ty) : stored_type :=
  match t with
  | TInt _ _ => TInteger
  | TDouble => TReal
  | TBool => TBoolean
  | TStr => TString
  | TConf | TVec _ | TMap _ => TConfig
  | TWrap _ t => fetch_type t
  end.
(* conversion_traits::value_type, config.h:155 *)
Definition raw (f : stored_type) : Type :=
  match f with
  | TInteger => Z
  | TReal => N
  | TBoolean => bool
  | TString => str
  | TConfig => option conf
  end.

(* ---- writing ---- *)
(* the overloads of put and add for the stored types make this manual_value,
   config_builder.cpp:97-183, 191-278 *)
Definition inject (f : stored_type) : raw f -> value :=
  match f with
  | TInteger => VInt
  | TReal => VReal
  | TBoolean => VBool
  | TString => VStr
  | TConfig => VConf
  end.
(* put(name, config) and add(config) ignore a null config,
   config_builder.cpp:177-183, 272-278 *)
Definition ignored (v : value) : bool := match v with VConf None => true | _ => false end.
Definition builder_add (b : conf) (v : value) : out conf := if ignored v then Val b else lift (add b (Some v)).
Definition builder_put (b : conf) (k : str) (v : value) : out conf := if ignored v then Val b else lift (put b k (Some v)).

(* invoke_skip, config.h:115-136, 178-183: skip of the optional and pointer
   converters (containers.h:82-85, 103-106, smart_pointers.h:34-37, 55-58), false
   for converters without it *)
Definition skip (t : ty) : den t -> bool :=
  match t with
  | TWrap _ _ => fun o => match o with None => true | Some _ => false end
  | _ => fun _ => false
  end.

(* invoke_store, config.h:185-190, with the store functions of the converters:
   narrow_converter and identity_converter config_backend.h:104-126,
   std_vector_converter containers.h:38-45, std_map_converter 63-70, the optional
   ones 87-91, 108-112 (value() of an empty optional throws), the pointer ones
   smart_pointers.h:39-43, 60-64 (a null pointer is dereferenced).  Numbers of a
   vector or map go to the overloads of add and put, which cast the same way. *)
Fixpoint store (t : ty) : den t -> out (raw (fetch_type t)) :=
  match t with
  | TInt s n => fun v => Val (cast int64 v)
  | TDouble => fun v => Val v
  | TBool => fun v => Val v
  | TStr => fun v => Val v
  | TConf => fun v => Val v
  | TVec t' => fun l =>
      obind (ofold (fun b v => if skip t' v then Val b
                               else obind (store t' v) (fun r => builder_add b (inject _ r)))
                   l (Conf KArray []))
            (fun c => Val (Some c))
  | TMap t' => fun l =>
      obind (ofold (fun b kv => if skip t' (snd kv) then Val b
                                else obind (store t' (snd kv)) (fun r => builder_put b (fst kv) (inject _ r)))
                   l (Conf KMap []))
            (fun c => Val (Some c))
  | TWrap w t' => fun o =>
      match o with
      | Some v => store t' v
      | None => match w with StdOptional | YatoOptional => BadAccess | UniquePtr | SharedPtr => Undefined end
      end
  end.

(* the templates put and add of config_builder.h:190-197, 319-326 *)
Definition put_value (t : ty) (b : conf) (k : str) (v : den t) : out conf :=
  if skip t v then Val b else obind (store t v) (fun r => builder_put b k (inject _ r)).
Definition add_value (t : ty) (b : conf) (v : den t) : out conf :=
  if skip t v then Val b else obind (store t v) (fun r => builder_add b (inject _ r)).

(* ---- reading ---- *)
Section Reading.
(* conversions of doubles, see ConvertModel *)
Variables (exact : N -> option Z) (to_real : Z -> N) (real_to_string : N -> text) (real_of_string : text -> option N).

(* the variant of a manual value *)
Definition variant_of (v : value) : ConvertModel.value N (option conf) :=
  match v with
  | VInt z => VInteger z
  | ConfigModel.VReal r => ConvertModel.VReal r
  | VBool b => VBoolean b
  | VStr s => VString s
  | VConf c => VConfig c
  end.
(* config_value::get<return_type>(fetch_type), config_backend.h:303-311 *)
Definition fetch (f : stored_type) (v : value) : option (raw f) :=
  let r := apply exact to_real real_to_string real_of_string f (variant_of v) in
  match f with
  | TInteger => match r with VInteger z => Some z | _ => None end
  | TReal => match r with ConvertModel.VReal x => Some x | _ => None end
  | TBoolean => match r with VBoolean b => Some b | _ => None end
  | TString => match r with VString s => Some s | _ => None end
  | TConfig => match r with VConfig c => Some c | _ => None end
  end.

(* config_entry::value, config.h:331-341, with map_result 209-219: a config_error
   of the converter makes an empty optional *)
Definition entry_with {f : stored_type} {A} (ld : raw f -> out A) (s : slot) : out (option A) :=
  match s with
  | None => Val None
  | Some v => match fetch f v with
              | None => Val None
              | Some r => match ld r with
                          | Val a => Val (Some a)
                          | Error => Val None
                          | BadAccess => BadAccess
                          | Undefined => Undefined
                          end
              end
  end.
(* optional::get_or_throw<config_error>, optional.h:609-615 *)
Definition get_or_throw {A} (o : option A) : out A := match o with Some a => Val a | None => Error end.
(* optional::get, optional.h:474-518 *)
Definition get_ {A} (o : option A) : out A := match o with Some a => Val a | None => BadAccess end.

(* std::map::emplace: an equal key stays as it is *)
Fixpoint map_emplace {A} (k : str) (v : A) (l : list (str * A)) : list (str * A) :=
  match l with
  | [] => [(k, v)]
  | (k', v') :: t => match scmp k k' with
                     | Lt => (k, v) :: l
                     | Eq => l
                     | Gt => (k', v') :: map_emplace k v t
                     end
  end.
(* std::multimap::emplace *)
Fixpoint multimap_emplace {A} (k : str) (v : A) (l : list (str * A)) : list (str * A) :=
  match l with
  | [] => [(k, v)]
  | (k', v') :: t => match scmp k k' with
                     | Lt => (k, v) :: l
                     | _ => (k', v') :: multimap_emplace k v t
                     end
  end.

(* invoke_load, config.h:171-176: narrow_converter and identity_converter
   config_backend.h:94-121, std_vector_converter containers.h:28-36,
   std_map_converter 51-61, the optional ones 76-80, 97-101, the pointer ones
   smart_pointers.h:28-32, 49-53 *)
Fixpoint load (t : ty) : raw (fetch_type t) -> out (den t) :=
  match t with
  | TInt s n => fun z => Val (cast (Int s n) z)
  | TDouble => fun r => Val r
  | TBool => fun b => Val b
  | TStr => fun s => Val s
  | TConf => fun c => Val c
  | TVec t' => fun c =>
      ofold (fun l e => obind (entry_with (load t') (e_val e))
                              (fun o => obind (get_or_throw o) (fun x => Val (l ++ [x]))))
            (iterate c) []
  | TMap t' => fun c =>
      if assoc_b c
      then ofold (fun l e => obind (entry_with (load t') (e_val e))
                                   (fun o => obind (get_or_throw o) (fun x => Val (map_emplace (e_key e) x l))))
                 (iterate c) []
      else Error
  | TWrap _ t' => fun r => obind (load t' r) (fun x => Val (Some x))
  end.

(* config_entry::value<Ty_>, config.h:313-319 *)
Definition entry_value (t : ty) (s : slot) : out (option (den t)) := entry_with (load t) s.
(* config::cvt<Ty_>, config.h:811-832: nothing for a null config, and nothing for a
   type not fetched as a config, whose converter has no load for it (222-231);
   otherwise convert_config::apply 233-246 *)
Definition cvt (t : ty) (c : option conf) : out (option (den t)) :=
  match c with
  | None => Val None
  | Some _ => match fetch_type t as f return (raw f -> out (den t)) -> out (option (den t)) with
              | TConfig => fun ld => match ld c with
                                     | Val a => Val (Some a)
                                     | Error => Val None
                                     | BadAccess => BadAccess
                                     | Undefined => Undefined
                                     end
              | _ => fun _ => Val None
              end (load t)
  end.

(* config::to_vector, config.h:1178-1189 *)
Definition to_vector (t : ty) (c : option conf) : out (list (den t)) :=
  ofold (fun l e => obind (entry_value t (e_val e)) (fun o => obind (get_ o) (fun x => Val (l ++ [x])))) (iterate c) [].
(* to_map and to_multimap, config.h:1194-1210, to_map_impl_ 1238-1252, with the
   order of strings given as Pr_ (the default std::less<Ty_> only compiles if the
   values are strings) *)
Definition to_map (t : ty) (c : option conf) : out (list (str * den t)) :=
  if assoc_b c
  then ofold (fun l e => obind (entry_value t (e_val e)) (fun o => obind (get_ o) (fun x => Val (map_emplace (e_key e) x l)))) (iterate c) []
  else Error.
Definition to_multimap (t : ty) (c : option conf) : out (list (str * den t)) :=
  if assoc_b c
  then ofold (fun l e => obind (entry_value t (e_val e)) (fun o => obind (get_ o) (fun x => Val (multimap_emplace (e_key e) x l)))) (iterate c) []
  else Error.
End Reading.

(* config_builder::cvt, config_builder.h:59-68; compiles only for types stored as
   a config *)
Definition builder_cvt (t : ty) : den t -> out (option conf) :=
  fun v => if skip t v then Val None
           else obind (store t v) (fun r => match inject _ r with VConf c => Val c | _ => Undefined end).
