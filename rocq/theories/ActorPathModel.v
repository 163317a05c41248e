(* Model of yato::actors::actor_path,
   /repo/modules/actors/yato/actors/actor_path.h and private/actor_path.cpp.
   A std::string is a list of ascii characters.  std::isalnum / std::isgraph
   are those of the C locale (actor_path.cpp:18). *)
From Coq Require Import List Bool Arith Ascii String.
Import ListNotations.

Definition str := list ascii.
Definition str_eqb (a b : str) : bool := if list_eq_dec ascii_dec a b then true else false.

(* actor_path.h:24-34 *)
Inductive scope := user | system | temp | remote | dead | unknown.

Definition slash : ascii := "/"%char.
Definition is_slash (c : ascii) : bool := Ascii.eqb c slash.

(* actor_path.cpp:20 *)
Definition path_root : str := list_ascii_of_string "yato://".

(* actor_path.cpp:24-32, 37-43 *)
Definition scope_to_str (s : scope) : str :=
  list_ascii_of_string
    match s with
    | unknown => "unknown" | user => "user" | system => "system"
    | temp => "temp" | remote => "remote" | dead => "dead"
    end.
(* actor_path.cpp:46-52 *)
Definition str_to_scope (n : str) : scope :=
  match find (fun s => str_eqb n (scope_to_str s)) [unknown; user; system; temp; remote; dead] with
  | Some s => s
  | None => unknown
  end.

(* actor_path.cpp:55-74, C locale *)
Definition between (lo hi : nat) (c : ascii) : bool := (lo <=? nat_of_ascii c) && (nat_of_ascii c <=? hi).
Definition is_valid_char (c : ascii) : bool :=
  between 48 57 c || between 65 90 c || between 97 122 c || Ascii.eqb c "_"%char.
Definition is_graph (c : ascii) : bool := between 33 126 c.
Definition nonempty (s : str) : bool := match s with [] => false | _ => true end.
(* actor_path.cpp:77-94 *)
Definition is_valid_system_name (n : str) : bool := nonempty n && forallb is_valid_char n.
Definition is_valid_actor_name (n : str) : bool := nonempty n && forallb (fun c => is_graph c && negb (is_slash c)) n.
Definition is_valid_actor_path (n : str) : bool := nonempty n && forallb is_graph n.

(* actor_path.cpp:96-106 ; None = throws argument_error.
   The assert scope != unknown (line 98) is the caller's precondition. *)
Definition build (sys : str) (sc : scope) (name : str) : option str :=
  if negb (is_valid_system_name sys) then None
  else if negb (is_valid_actor_path name) then None
  else Some (path_root ++ sys ++ [slash] ++ scope_to_str sc ++ [slash] ++ name).

(* std::find(begin, end, '/') : the text before it, and the rest from it on *)
Fixpoint find_slash (s : str) : str * str :=
  match s with
  | [] => ([], [])
  | c :: t => if is_slash c then ([], s) else let (a, b) := find_slash t in (c :: a, b)
  end.

(* actor_path.h:36-41 *)
Record elements := Elements { e_system : str; e_scope : scope; e_names : list str }.
Inductive outcome := Accept (e : elements) | Reject | UB.

(* std::equal(root, root+7, begin) reads path characters one by one and stops
   at the first difference: None = reads at or past end() (UB) *)
Fixpoint equal_prefix (root path : str) : option bool :=
  match root, path with
  | [], _ => Some true
  | _ :: _, [] => None
  | r :: root', p :: path' => if Ascii.eqb r p then equal_prefix root' path' else Some false
  end.

(* actor_path.cpp:143-150 ; the loop is driven by the remaining text, fuel
   exhaustion is None *)
Fixpoint decode_names (fuel : nat) (from_end : str) : option (list str) :=
  match from_end with
  | [] => Some []
  | _ :: rest =>
      match fuel with
      | 0 => None
      | S f =>
          let (name, e) := find_slash rest in
          match decode_names f e with
          | None => None
          | Some l => Some (if nonempty name then name :: l else l)
          end
      end
  end.

(* actor_path.cpp:117-158.  The out-parameter is modelled only on success. *)
Definition parce (path : str) (header_only : bool) : outcome :=
  match equal_prefix path_root path with
  | None => UB
  | Some false => Reject                                      (* 120-122 *)
  | Some true =>
      let begin := skipn (List.length path_root) path in           (* 123 *)
      let (sys, e) := find_slash begin in                     (* 126-130 *)
      match e with
      | [] => Reject
      | _ :: begin2 =>                                        (* 133-136 *)
          let (sc, e2) := find_slash begin2 in
          match str_to_scope sc with
          | unknown => Reject                                 (* 139-141 *)
          | scp =>
              if header_only then Accept (Elements sys scp [])
              else match decode_names (S (List.length e2)) e2 with
                   | None => UB
                   | Some [] => Reject                        (* 151-153 *)
                   | Some names => Accept (Elements sys scp names)
                   end
          end
      end
  end.

(* actor_path.h:96-107 : text after the last slash, empty if there is none *)
Definition get_name (path : str) : str :=
  (fix go (s best : str) (seen : bool) : str :=
     match s with
     | [] => if seen then best else []
     | c :: t => if is_slash c then go t t true else go t best seen
     end) path [] false.

(* actor_path.h:147-150, there called join *)
Definition join_path (path name : str) : str := path ++ [slash] ++ name.
(* actor_system.cpp:233-238: what is not accepted has scope unknown or is not built by
   the functions below *)
Definition checked (path : str) : option str :=
  match parce path false with Accept e => match e_scope e with unknown => None | _ => Some path end | _ => None end.
(* actor_system.h:64-69, 127-132; None = throws *)
Definition create_top (sys : str) (sc : scope) (name : str) : option str :=
  if is_valid_actor_name name then match build sys sc name with Some p => checked p | None => None end else None.
(* actor_system.h:74-82 *)
Definition create_below (parent name : str) : option str :=
  if is_valid_actor_name name then checked (join_path parent name) else None.
(* an actor created by an actor that was created by an actor ... *)
Fixpoint create_chain (parent : str) (names : list str) : option str :=
  match names with
  | [] => Some parent
  | n :: t => match create_below parent n with Some p => create_chain p t | None => None end
  end.
Definition create_nested (sys : str) (sc : scope) (names : list str) : option str :=
  match names with
  | [] => None
  | n :: t => match create_top sys sc n with Some p => create_chain p t | None => None end
  end.

(* ---- specification ---- *)
(* names joined by single slashes *)
Fixpoint join (names : list str) : str :=
  match names with
  | [] => []
  | [x] => x
  | x :: r => x ++ slash :: join r
  end.
Definition show (sys : str) (sc : scope) (names : list str) : str :=
  path_root ++ sys ++ [slash] ++ scope_to_str sc ++ [slash] ++ join names.
Definition slash_free (s : str) : Prop := ~ In slash s.
(* drop every slash that is followed by another slash or by the end *)
Fixpoint squeeze (s : str) : str :=
  match s with
  | [] => []
  | c :: t => if is_slash c && match t with [] => true | d :: _ => is_slash d end
              then squeeze t else c :: squeeze t
  end.
