(* Vocabulary for C109: null configs inside a tree, and the configs a program
   obtains in a debug build. *)
From Coq Require Import List.
From Verif Require Import ConfigModel ConfigSpec ConfigWf DconfModel.
Import ListNotations.

(* somewhere in the tree an entry holds a null config *)
Inductive holed : conf -> Prop :=
| holed_here k es n : In (n, Some (VConf None)) es -> holed (Conf k es)
| holed_below k es n c : In (n, Some (VConf (Some c))) es -> holed c -> holed (Conf k es).

(* the value is no config, or a null one *)
Definition leaf (v : value) : Prop := forall c, v <> VConf (Some c).

(* following the names, through any of the entries with the next name, one
   arrives at a leaf before the names are used up *)
Inductive cut_short : list str -> conf -> Prop :=
| cut_here n m rest k es v : k <> KArray -> In (n, Some v) es -> leaf v -> cut_short (n :: m :: rest) (Conf k es)
| cut_below n rest k es c : k <> KArray -> In (n, Some (VConf (Some c))) es -> cut_short rest c -> cut_short (n :: rest) (Conf k es).

(* the functions of the release build *)
Definition some_of (r : res conf) : res (option conf) := bind r (fun c => Ok (Some c)).
Definition release (o : request) (b : option conf) : res (option conf) :=
  match o with
  | RClone => clone b
  | RShallow => shallow_copy b
  | RWith p v => some_of (with_value b p v)
  | RWithout p => without_path b p
  | ROnly p => with_only_path b p
  | RFilter white names => if white then with_whitelist b names else with_blacklist b names
  | RMerge other p => some_of (merged_with b other p)
  end.

(* the configs passed with a request *)
Definition passed (o : request) : option (option conf) :=
  match o with
  | RWith _ (VConf c) => Some c
  | RMerge c _ => Some c
  | _ => None
  end.
Definition stores_null (o : request) : Prop := match o with RWith _ (VConf None) => True | _ => False end.

(* configs a program obtains in a debug build when it never stores a null
   config with with_value *)
Inductive dmade : option conf -> Prop :=
| dmade_null : dmade None
| dmade_build k ops b : (forall o c, In o ops -> op_value o = Some (VConf (Some c)) -> dmade (Some c)) -> build k ops = Ok b -> dmade b
| dmade_request b o b' : dmade b -> (forall c, passed o = Some c -> dmade c) -> ~ stores_null o ->
    drun true o b = Run (Ok b') -> dmade b'
| dmade_object b p c : dmade b -> e_val (at_path b p) = Some (VConf (Some c)) -> dmade (Some c).
