(* What texts are to be: up to a NUL, with the line ends of the reader, and as tokens
   with layout between them. *)
From Coq Require Import String Ascii List Bool Arith.
From Verif Require Import ConvertModel ConfigModel BackModel.
Import ListNotations.

Definition no_nul (t : str) : Prop := ~ In nul t.
(* u is the part of t before its first NUL *)
Definition first_part (t u : str) : Prop := no_nul u /\ (t = u \/ exists r, t = u ++ nul :: r).

(* u is t with every CR LF replaced by LF *)
Inductive lines_read : str -> str -> Prop :=
| LNil : lines_read [] []
| LPair t u : lines_read t u -> lines_read ("013" :: "010" :: t)%char ("010" :: u)%char
| LOther c t u : ~ (c = "013"%char /\ exists r, t = ("010" :: r)%char) -> lines_read t u -> lines_read (c :: t) (c :: u).
(* t is what a stream reads with rest before it *)
Definition rest_read (translated : bool) (rest t : str) : Prop := if translated then lines_read rest t else t = rest.

(* the tokens of a document *)
Definition comma : str := [","%char].
Definition colon : str := [":"%char].
Section Tokens.
Variable scalar : json -> str.
Variable quoted : str -> str.
Definition listed (l : list (list str)) : list str :=
  match l with [] => [] | a :: r => a ++ flat_map (fun b => comma :: b) r end.
Fixpoint tokens (j : json) : list str :=
  match j with
  | JArr l => [["["%char]] ++ listed (map tokens l) ++ [["]"%char]]
  | JObj l => [["{"%char]] ++ listed (map (fun e => match e with (k, x) => [quoted k; colon] ++ tokens x end) l) ++ [["}"%char]]
  | JStr s => [quoted s]
  | _ => [scalar j]
  end.
End Tokens.
(* the text consists of the tokens, with characters of layout before them *)
Inductive woven (layout : ascii -> Prop) : list str -> str -> Prop :=
| WNil : woven layout [] []
| WCons w t ts text : Forall layout w -> woven layout ts text -> woven layout (t :: ts) (w ++ t ++ text).
Definition white (c : ascii) : Prop := c = "010"%char \/ c = " "%char.
