(* What C74 speaks about. *)
From Coq Require Import String Ascii List Arith.
From Verif Require Import LogModel.
Import ListNotations.

(* the line for a text: it ends with a newline *)
Definition line (t : list nat) : list nat := if last t 0 =? 10 then t else t ++ [10].
(* what a C string shows *)
Fixpoint visible (t : list nat) : list nat :=
  match t with [] => [] | c :: r => if c =? 0 then [] else c :: visible r end.
Definition shown (w : what) : list nat := match w with Formatted t => t | Text s => visible s end.
Definition codes (s : string) : list nat := map nat_of_ascii (list_ascii_of_string s).
(* what precedes every message *)
Definition heading (c : call) (n : list nat) : list nat :=
  codes match c with
        | CError => "[ERROR]   " | CWarning => "[WARNING] " | CInfo => "[INFO]    " | CDebug => "[DEBUG]   " | CVerbose => "[VERBOSE] "
        end ++ visible n ++ codes " - ".
(* which calls a filter lets through, in a release or a debug build *)
Definition admits (debug : bool) (f : level) (c : call) : bool :=
  match f, c with
  | Silent, _ => false
  | Err, CError => true | Err, _ => false
  | Warning, (CError | CWarning) => true | Warning, _ => false
  | Info, (CError | CWarning | CInfo) => true | Info, _ => false
  | Debug, CVerbose => false | Debug, CDebug => debug | Debug, _ => true
  | Verbose, CDebug => debug | Verbose, _ => true
  end.
