(* Command line configs: /repo/modules/config/yato/config/cmd/cmd.cpp, cmd.h and
   private/cmd_config.h, private/cmd_value.h.

   The command line is analysed by the library TCLAP, which is not part of the
   code.  It appears here as two parameters: whether it takes an argument besides
   the ones it has, and what it makes of a list of words: for every argument,
   in the order of registration, the text given for it or nothing; or it raises
   an ExitException; or it ends the process.  What is assumed of it is stated in
   the theorems.

   Simplifications: memory never runs out; the number of words fits an int; the
   text written to the output stream is only modelled by its first line. *)
From Coq Require Import String Ascii List Bool Arith NArith ZArith.
From Verif Require Import ConvertModel ConfigModel.
Import ListNotations.
Local Open Scope nat_scope.

(* cmd.h:24-41 *)
Inductive argument_type := Positional | Required | Optional.
Section Cmd.
Context {real : Type}.
Variable real_of_string : text -> option real.
Notation variant := (ConvertModel.value real Empty_set).

(* what the constructor of cmd_value keeps (cmd_value.h:30-58), without the flag
   and the description *)
Record arg := Arg { a_kind : argument_type; a_type : stored_type; a_name : str; a_default : variant }.

Inductive tresult := TDone (given : list (option str)) | TExit (status : Z) | TQuit (status : Z).
Variable tclap_add : list arg -> arg -> bool.
Variable tclap_parse : list arg -> list str -> tresult.

(* the default is kept for optional arguments only; a boolean is a switch with the
   default false, cmd_value.h:33-57 *)
Definition make_arg (k : argument_type) (t : stored_type) (n : str) (d : variant) : arg :=
  match t with
  | TBoolean => Arg Optional TBoolean n (VBoolean false)
  | _ => Arg k t n (match k with Optional => d | _ => VVoid end)
  end.
(* cmd_builder::integer, floating, string, boolean, cmd.cpp:43-97, 18-24 *)
Inductive decl :=
| DInteger (k : argument_type) (n : str) (d : option Z)
| DFloating (k : argument_type) (n : str) (d : option real)
| DString (k : argument_type) (n : str) (d : option str)
| DBoolean (n : str).
Definition to_variant {A} (f : A -> variant) (o : option A) : variant := match o with Some a => f a | None => VVoid end.
Definition decl_arg (d : decl) : arg :=
  match d with
  | DInteger k n d => make_arg k TInteger n (to_variant VInteger d)
  | DFloating k n d => make_arg k TReal n (to_variant ConvertModel.VReal d)
  | DString k n d => make_arg k TString n (to_variant VString d)
  | DBoolean n => make_arg Optional TBoolean n VVoid
  end.

(* a cmd_value: its argument, and the text TCLAP has set, if any *)
Record cvalue := CValue { v_arg : arg; v_text : option str }.
(* cvt_from(std::string, stored_variant, stored_type), utility.h:334-362 *)
Definition decode_text (t : stored_type) (s : str) : variant :=
  match t with
  | TInteger => match int_of_string s with Some z => VInteger z | None => VVoid end
  | TReal => match real_of_string s with Some r => ConvertModel.VReal r | None => VVoid end
  | TBoolean => match bool_of_string s with Some b => VBoolean b | None => VVoid end
  | TString => VString s
  | TConfig => VVoid
  end.
(* cmd_value::get, cmd_value.h:67-94; a switch that is set has the value true *)
Definition get (v : cvalue) : variant :=
  match v_text v with
  | Some s => match a_type (v_arg v) with
              | TBoolean => VBoolean true
              | TConfig => VVoid
              | t => decode_text t s
              end
  | None => a_default (v_arg v)
  end.
(* cmd_value::valid, cmd_value.h:99-102 *)
Definition valid (v : cvalue) : bool :=
  match v_text v with
  | Some _ => true
  | None => match a_default (v_arg v) with VVoid => false | _ => true end
  end.

(* cmd_config, cmd_config.h:78-179: the arguments known to TCLAP, in order, and
   the map from names to values *)
Fixpoint set_arg {V} (k : str) (v : V) (l : list (str * V)) : list (str * V) :=
  match l with
  | [] => [(k, v)]
  | (k', v') :: t => match scmp k k' with
                     | Lt => (k, v) :: l
                     | Eq => (k', v) :: t
                     | Gt => (k', v') :: set_arg k v t
                     end
  end.
Record cconf := CConf { c_known : list arg; c_args : list (str * cvalue) }.
(* cmd_config::add, cmd_config.h:98-102.  TCLAP throws if it does not take the
   argument; if an argument of the same name is replaced, TCLAP keeps a pointer
   to the destroyed one (UB). *)
Definition has_name {V} (k : str) (l : list (str * V)) : bool := existsb (fun e => seqb (fst e) k) l.
Definition cadd (c : cconf) (d : decl) : res cconf :=
  let a := decl_arg d in
  if tclap_add (c_known c) a then
    if has_name (a_name a) (c_args c) then UB
    else Ok (CConf (c_known c ++ [a]) (set_arg (a_name a) (CValue a None) (c_args c)))
  else Throw.
Definition declare (ds : list decl) : res cconf := foldM cadd ds (CConf [] []).

(* CmdLine::parse sets the texts *)
Definition set_texts (given : list (option str)) (known : list arg) (l : list (str * cvalue)) : list (str * cvalue) :=
  fold_left (fun l ga => match ga with
                         | (Some s, a) => set_arg (a_name a) (CValue a (Some s)) l
                         | (None, _) => l
                         end) (combine given known) l.
(* prune_, cmd_config.h:165-174 *)
Definition prune (l : list (str * cvalue)) : list (str * cvalue) :=
  fold_left (fun r e => if valid (snd e) then set_arg (fst e) (snd e) r else r) l [].
(* cmd_config::parse, 104-115 *)
Inductive presult (A : Type) := PDone (a : A) | PExit (status : Z) | PQuit (status : Z).
Arguments PDone {A}. Arguments PExit {A}. Arguments PQuit {A}.
Definition cparse (c : cconf) (words : list str) : presult (list (str * cvalue)) :=
  match tclap_parse (c_known c) words with
  | TDone given => PDone (prune (set_texts given (c_known c) (c_args c)))
  | TExit n => PExit n
  | TQuit n => PQuit n
  end.

(* the finished config: do_size, do_find 125-148 *)
Definition cfg := list (str * cvalue).
Definition cfg_size (c : cfg) : nat := length c.
Definition cfg_at (c : cfg) (i : nat) : option (str * cvalue) := nth_error c i.
Fixpoint cfg_find (k : str) (i : nat) (c : cfg) : option (nat * cvalue) :=
  match c with
  | [] => None
  | (k', v) :: t => if seqb k' k then Some (i, v) else cfg_find k (S i) t
  end.

(* ---- cmd_dispatcher, cmd.cpp:147-300 ---- *)
(* a handler gets the config and gives a status *)
Definition handler := cfg -> Z.
(* an alternative: its handler and its builder, None once m_conf has been given
   away by a successful parse (cmd.cpp:110-117) *)
Definition alternative := (handler * option cconf)%type.
Inductive message := EmptyLine | Unknown (key : str).
Record dispatcher := Dispatcher {
  d_alternatives : list (str * alternative);
  d_stream : bool;                         (* dst_stream is not null *)
  d_error : Z;
  d_log : list message;                    (* what was written to the stream *)
  d_calls : list (str * cfg)               (* handlers called, by key *)
}.
(* 147-152, 236-240 *)
Definition new_dispatcher : dispatcher := Dispatcher [] true 1 [] [].
(* 248-253 *)
Definition add_alternative (d : dispatcher) (k : str) (h : handler) (b : option cconf) : dispatcher :=
  Dispatcher (set_arg k (h, b) (d_alternatives d)) (d_stream d) (d_error d) (d_log d) (d_calls d).
(* 154-171 *)
Definition first_positional (words : list str) : option str := nth_error words 1.
(* 173-198 *)
Definition the_rest (words : list str) : list str :=
  match words with
  | [] => []
  | w :: t => w :: tl t
  end.
Fixpoint lookup {V} (k : str) (l : list (str * V)) : option V :=
  match l with
  | [] => None
  | (k', v) :: t => if seqb k' k then Some v else lookup k t
  end.
(* the outcome of a parse: a status returned, config_error thrown, the process
   ended, or a null m_conf dereferenced by set_ostream (99-103) *)
Inductive dresult := Returned (status : Z) | Threw | Quit (status : Z) | NullDeref.
(* handle_error, 200-209 *)
Definition handle_error (d : dispatcher) (m : message) : dispatcher * dresult :=
  if d_stream d
  then (Dispatcher (d_alternatives d) (d_stream d) (d_error d) (d_log d ++ [m]) (d_calls d), Returned (d_error d))
  else (d, Threw).
(* parse_impl, 211-231 *)
Definition dparse (d : dispatcher) (words : list str) : dispatcher * dresult :=
  match first_positional words with
  | None => handle_error d EmptyLine
  | Some k =>
      match lookup k (d_alternatives d) with
      | None => handle_error d (Unknown k)
      | Some (h, None) => (d, NullDeref)
      | Some (h, Some c) =>
          match cparse c (the_rest words) with
          | PExit n => (d, Returned n)
          | PQuit n => (d, Quit n)
          | PDone cf =>
              (Dispatcher (set_arg k (h, None) (d_alternatives d)) (d_stream d) (d_error d) (d_log d) (d_calls d ++ [(k, cf)]),
               Returned (h cf))
          end
      end
  end.
End Cmd.
Arguments PDone {A} a.
Arguments PExit {A} status.
Arguments PQuit {A} status.
