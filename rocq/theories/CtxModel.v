(* Model of how an actor system reads its configuration:
   /repo/modules/actors/yato/actors/private/execution_context.h:22-80,
   /repo/modules/actors/yato/actors/config.h:41-75 and
   /repo/modules/actors/yato/actors/private/actor_system.cpp:63-71, 91-151.
   Starting threads does not fail; a build with YATO_ACTORS_WITH_IO is a flag.
   The lookup of entries is that of ConfigModel, the conversion of values that of
   ConvertModel with real numbers left to parameters. *)
From Coq Require Import String Ascii List Bool Arith NArith ZArith.
From Verif Require Import ConvertModel ConfigModel.
From Verif Require ActorPathModel LogModel.
Import ListNotations.
Open Scope Z_scope.

(* dynamic_executor and pinned_executor with their constructor arguments *)
Inductive executor := ThreadPool (threads throughput : Z) | Pinned (limit : Z).
(* execution_context.h:22-25 *)
Record context := Context { c_name : str; c_executor : executor }.
(* what stops a constructor: the exceptions and a failed assertion *)
Inductive failure := ConfigError | BadOptional | ArgumentError | Aborted.
Definition outcome (A : Type) := (A + failure)%type.
Definition ret {A} (a : A) : outcome A := inl a.
Definition andthen {A B} (x : outcome A) (f : A -> outcome B) : outcome B := match x with inl a => f a | inr e => inr e end.
(* optional::get *)
Definition get {A} (o : option A) : outcome A := match o with Some a => inl a | None => inr BadOptional end.
Definition get_or {A} (o : option A) (d : A) : A := match o with Some a => a | None => d end.

Section Reals.
(* the conversions of doubles, see ConvertModel *)
Variables (exact : N -> option Z) (to_real : Z -> N) (real_to_string : N -> text) (real_of_string : text -> option N).
Variable debug : bool.

Definition to_value (v : ConfigModel.value) : ConvertModel.value N (option conf) :=
  match v with
  | VInt z => VInteger z
  | ConfigModel.VReal r => ConvertModel.VReal r
  | VBool b => VBoolean b
  | VStr s => VString s
  | VConf c => VConfig c
  end.
(* config_entry::value, config.h:327-341 with map_result 196-219 *)
Definition read_string (b : option conf) (k : str) : option str :=
  match e_val (at_key b k) with None => None | Some v => get_string exact to_real real_to_string real_of_string (to_value v) end.
Definition read_bool (b : option conf) (k : str) : option bool :=
  match e_val (at_key b k) with None => None | Some v => get_boolean exact to_real real_to_string real_of_string (to_value v) end.
Definition read_uint32 (b : option conf) (k : str) : outcome (option Z) :=
  match e_val (at_key b k) with
  | None => ret None
  | Some v => match load_int debug (Int false 32) (get_integer exact to_real real_to_string real_of_string (to_value v)) with
              | Some o => ret o
              | None => inr Aborted
              end
  end.

(* the converter, execution_context.h:50-77 *)
Definition convert (b : option conf) : outcome context :=
  let read :=
    andthen (get (read_string b (chars "name"))) (fun name =>
    andthen (get (read_string b (chars "type"))) (fun type =>
    if seqb type (chars "thread_pool") then
      andthen (read_uint32 b (chars "threads_num")) (fun threads =>
      andthen (read_uint32 b (chars "throughput")) (fun throughput =>
      ret (Context name (ThreadPool (get_or threads 4) (get_or throughput 5)))))
    else if seqb type (chars "pinned") then
      andthen (read_uint32 b (chars "threads_limit")) (fun limit => ret (Context name (Pinned (get_or limit 16))))
    else inr ConfigError)) in
  match read with
  | inr BadOptional => inr ConfigError                                    (* 71-73 *)
  | r => r
  end.
(* 28-33 *)
Definition get_default (name : str) : context := Context name (ThreadPool 4 5).

(* value<execution_context>(i, converter) of the array: a config_error becomes an
   empty optional *)
Definition element (b : option conf) (i : nat) : outcome (option context) :=
  match e_val (entry_at b i) with
  | None => ret None
  | Some v => match as_conf v with
              | None => ret None
              | Some c => match convert c with
                          | inl x => ret (Some x)
                          | inr ConfigError => ret None
                          | inr e => inr e
                          end
              end
  end.
(* actor_system.cpp:107-112 *)
Fixpoint elements (b : option conf) (ids : list nat) (cs : list context) : outcome (list context) :=
  match ids with
  | [] => ret cs
  | i :: t => andthen (element b i) (fun o => andthen (get o) (fun c => elements b t (cs ++ [c])))
  end.
(* 63-71: both ends of the searched range are begin() *)
Definition find_execution (cs : list context) (name : str) : option context :=
  match cs with [] => None | c :: _ => Some c end.
(* init_executors_ 91-118 *)
Definition init_executors (b : option conf) : outcome (str * list context) :=
  let '(name, cs) := match read_string b (chars "default_executor") with
                     | Some n => (n, [])
                     | None => (chars "default", [get_default (chars "default")])
                     end in
  let arr := object_of (e_val (at_key b (chars "execution_contexts"))) in
  andthen (match arr with None => ret cs | Some _ => elements arr (seq 0 (size arr)) cs end) (fun cs =>
  match find_execution cs name with
  | None => inr ConfigError
  | Some _ => ret (name, cs)
  end).

(* config_converter_log, config.h:43-60 *)
Definition levels : list (str * LogModel.level) :=
  [(chars "silent", LogModel.Silent); (chars "error", LogModel.Err); (chars "warning", LogModel.Warning);
   (chars "info", LogModel.Info); (chars "debug", LogModel.Debug); (chars "verbose", LogModel.Verbose)].
Definition to_level (s : str) : option LogModel.level := option_map snd (find (fun p => seqb (fst p) s) levels).
(* actor_system.cpp:131 *)
Definition read_level (b : option conf) : LogModel.level :=
  get_or (match read_string b (chars "log_level") with None => None | Some s => to_level s end) LogModel.Info.

Record system := System { s_name : str; s_level : LogModel.level; s_default : str; s_contexts : list context; s_io : bool }.
(* actor_system::actor_system 122-151 *)
Definition construct (with_io : bool) (name : str) (b : option conf) : outcome system :=
  if negb (ActorPathModel.is_valid_system_name name) then inr ArgumentError
  else
    let level := read_level b in
    andthen (init_executors b) (fun '(d, cs) =>
    let io := get_or (read_bool b (chars "enable_io")) false in
    if io && negb with_io then inr ArgumentError
    else ret (System name level d cs io)).
End Reals.
