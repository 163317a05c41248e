(* The logger, /repo/modules/actors/yato/actors/logger.h and private/logger.cpp.
   Characters are their codes.  What printf makes of a format and its arguments is
   given; an encoding error (a negative return value) is left out, and so are texts
   longer than an int can count, which end in LUB here. *)
From Coq Require Import String Ascii List Bool Arith ZArith.
Import ListNotations.

Inductive level := Silent | Err | Warning | Info | Debug | Verbose.          (* logger.h:23-32 *)
Definition rank (l : level) : nat := match l with Silent => 0 | Err => 1 | Warning => 2 | Info => 3 | Debug => 4 | Verbose => 5 end.

Inductive lresult (A : Type) := LOk (x : A) | LUB.
Arguments LOk {A} x. Arguments LUB {A}.
Definition lbind {A B} (x : lresult A) (f : A -> lresult B) : lresult B := match x with LOk a => f a | LUB => LUB end.

Definition chars (s : string) : list nat := map nat_of_ascii (list_ascii_of_string s).
(* logger.cpp:29-34; the tag of silent is a null pointer *)
Definition tag (l : level) : option (list nat) :=
  match l with
  | Silent => None
  | Err => Some (chars "[ERROR]   ") | Warning => Some (chars "[WARNING] ") | Info => Some (chars "[INFO]    ")
  | Debug => Some (chars "[DEBUG]   ") | Verbose => Some (chars "[VERBOSE] ")
  end.

(* std::string::c_str as printf reads it: up to the first zero *)
Fixpoint c_str (s : list nat) : list nat :=
  match s with [] => [] | 0 :: _ => [] | c :: t => c :: c_str t end.

(* std::array<char, n>, uninitialised; accesses are checked *)
Definition buffer := list (option nat).
Definition put (b : buffer) (i c : nat) : lresult buffer :=
  if i <? length b then LOk (firstn i b ++ Some c :: skipn (S i) b) else LUB.
Definition fetch (b : buffer) (i : nat) : lresult nat :=
  match nth_error b i with Some (Some c) => LOk c | _ => LUB end.
Fixpoint put_all (b : buffer) (i : nat) (cs : list nat) : lresult buffer :=
  match cs with
  | [] => LOk b
  | c :: t => lbind (put b i c) (fun b' => put_all b' (S i) t)
  end.
Definition INT_MAX : Z := 2147483647.
(* snprintf(buffer + i, size, ...) of a formatted text: what fits, a zero, and the
   length of the whole *)
Definition snprintf (b : buffer) (i size : nat) (text : list nat) : lresult (buffer * nat) :=
  if (INT_MAX <? Z.of_nat (length text))%Z then LUB
  else match size with
       | 0 => LOk (b, length text)
       | S k => lbind (put_all b i (firstn k text ++ [0])) (fun b' => LOk (b', length text))
       end.
(* std::cout << message, logger.cpp:44 *)
Fixpoint print (b : buffer) : lresult (list nat) :=
  match b with
  | [] | None :: _ => LUB
  | Some 0 :: _ => LOk []
  | Some c :: t => lbind (print t) (fun s => LOk (c :: s))
  end.

Definition MESSAGE_LENGTH : nat := 2048.                                      (* logger.h:38 *)
Record logger := Logger { name : list nat; filter : level }.
(* the constructor, logger.cpp:19-35; debug is YATO_DEBUG *)
Definition create (debug : bool) (n : list nat) : logger := Logger n (if debug then Debug else Info).
Definition set_filter (l : level) (g : logger) : logger := Logger (name g) l.     (* logger.h:83-85 *)

(* format_and_write, logger.h:52-73; the result is what is written to the console, if
   anything *)
Definition format_and_write (g : logger) (l : level) (text : list nat) : lresult (option (list nat)) :=
  if rank l <=? rank (filter g) then
    match tag l with
    | None => LUB
    | Some t =>
      lbind (snprintf (repeat None (MESSAGE_LENGTH + 1)) 0 MESSAGE_LENGTH (t ++ c_str (name g) ++ chars " - ")) (fun '(b, n) =>
      let len := Nat.min n (MESSAGE_LENGTH - 1) in
      lbind (snprintf b len (MESSAGE_LENGTH - len) text) (fun '(b, n) =>
      if (INT_MAX <? Z.of_nat (len + n))%Z then LUB else
      let len := Nat.min (len + n) (MESSAGE_LENGTH - 1) in
      match len with
      | 0 => LUB
      | S last =>
        lbind (fetch b last) (fun c =>
        lbind (if c =? 10 then LOk b else lbind (put b len 10) (fun b => put b (len + 1) 0)) (fun b =>
        lbind (print b) (fun s => LOk (Some s))))
      end))
    end
  else LOk None.

(* what the public functions are called with: a format with its arguments, or a string *)
Inductive what := Formatted (t : list nat) | Text (s : list nat).
Definition text_of (w : what) : list nat := match w with Formatted t => t | Text s => c_str s end.
(* logger.h:91-146; debug does nothing unless YATO_DEBUG; there is no function for silent *)
Inductive call := CError | CWarning | CInfo | CDebug | CVerbose.
Definition level_of (c : call) : level :=
  match c with CError => Err | CWarning => Warning | CInfo => Info | CDebug => Debug | CVerbose => Verbose end.
Definition log (debug : bool) (g : logger) (c : call) (w : what) : lresult (option (list nat)) :=
  match c with
  | CDebug => if debug then format_and_write g Debug (text_of w) else LOk None
  | _ => format_and_write g (level_of c) (text_of w)
  end.
