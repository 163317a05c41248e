(* What a configuration says about an actor system. *)
From Coq Require Import String Ascii List Bool Arith NArith ZArith.
From Verif Require Import ConvertModel ConfigModel CtxModel.
From Verif Require ActorPathModel LogModel.
Import ListNotations.
Open Scope Z_scope.

(* v is the value of the first entry of b with key k *)
Definition stored (b : option conf) (k : str) (v : ConfigModel.value) : Prop :=
  exists kd pre post, b = Some (Conf kd (pre ++ (k, Some v) :: post)) /\ kd <> KArray /\ ~ In k (map fst pre).

Section Reals.
Variables (exact : N -> option Z) (real_to_string : N -> text).
(* a value read as a text, a number, or a truth value *)
Inductive written : ConfigModel.value -> str -> Prop :=
| w_str s : written (VStr s) s
| w_int z : written (VInt z) (int_to_string z)
| w_bool (b : bool) : written (VBool b) (chars (if b then "1" else "0"))
| w_real r : written (ConfigModel.VReal r) (real_to_string r).
Inductive number : ConfigModel.value -> Z -> Prop :=
| n_int z : number (VInt z) z
| n_str s z : int_of_string s = Some z -> number (VStr s) z
| n_bool (b : bool) : number (VBool b) (if b then 1 else 0)
| n_real r z : exact r = Some z -> number (ConfigModel.VReal r) z.
Inductive truth : ConfigModel.value -> bool -> Prop :=
| t_bool b : truth (VBool b) b
| t_int z : truth (VInt z) (negb (z =? 0))
| t_str s b : bool_of_string s = Some b -> truth (VStr s) b.

Definition text_at (b : option conf) (k s : str) : Prop := exists v, stored b k v /\ written v s.
(* the number at k cut to 32 bits, d if there is none *)
Definition count_at (b : option conf) (k : str) (d n : Z) : Prop :=
  (exists v z, stored b k v /\ number v z /\ n = z mod 2 ^ 32) \/
  (n = d /\ forall v z, stored b k v -> ~ number v z).
Definition flag_at (b : option conf) (k : str) (f : bool) : Prop :=
  (exists v, stored b k v /\ truth v f) \/ (f = false /\ forall v x, stored b k v -> ~ truth v x).

(* b describes an execution context *)
Inductive describes (b : option conf) : context -> Prop :=
| d_pool n t p : text_at b (chars "name") n -> text_at b (chars "type") (chars "thread_pool") ->
    count_at b (chars "threads_num") 4 t -> count_at b (chars "throughput") 5 p -> describes b (Context n (ThreadPool t p))
| d_pinned n l : text_at b (chars "name") n -> text_at b (chars "type") (chars "pinned") ->
    count_at b (chars "threads_limit") 16 l -> describes b (Context n (Pinned l)).
(* an entry of the array does *)
Definition entry_describes (e : str * slot) (c : context) : Prop := exists b, snd e = Some (VConf b) /\ describes b c.

(* the array of contexts; no entry or one that is no config counts as the empty one *)
Definition contexts_at (b : option conf) (es : list (str * slot)) : Prop :=
  (exists kd, stored b (chars "execution_contexts") (VConf (Some (Conf kd es)))) \/
  (es = [] /\ forall c, ~ stored b (chars "execution_contexts") (VConf (Some c))).

Definition level_name (l : LogModel.level) : str :=
  chars match l with
        | LogModel.Silent => "silent" | LogModel.Err => "error" | LogModel.Warning => "warning"
        | LogModel.Info => "info" | LogModel.Debug => "debug" | LogModel.Verbose => "verbose"
        end.
Definition level_at (b : option conf) (l : LogModel.level) : Prop :=
  text_at b (chars "log_level") (level_name l) \/
  (l = LogModel.Info /\ forall m, ~ text_at b (chars "log_level") (level_name m)).

(* the contexts of the system: its own one first unless the configuration names the
   default, then the described ones in order *)
Definition contexts_of (b : option conf) (d : str) (cs : list context) : Prop :=
  exists es own more, contexts_at b es /\ Forall2 entry_describes es more /\ cs = own ++ more /\
    ((text_at b (chars "default_executor") d /\ own = []) \/
     (d = chars "default" /\ own = [Context d (ThreadPool 4 5)] /\ forall n, ~ text_at b (chars "default_executor") n)).
End Reals.
