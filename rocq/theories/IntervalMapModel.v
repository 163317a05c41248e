(* Model of yato::interval_map, /repo/include/yato/interval_map.h.
   The std::map<_Key,_Value> member (line 30) is an association list sorted by
   key.  Keys are integers (any linearly ordered numeric key embeds in Z); the
   value std::numeric_limits<_Key>::lowest() is the parameter [lo].
   An iterator of std::map is modelled by the key of the node it points to, and
   end() by None: like the real iterators it stays valid when other nodes are
   inserted or erased.  Undefined behaviour (decrementing begin(),
   dereferencing end()) is the outcome None of the option type. *)
From Coq Require Import List ZArith Bool.
Import ListNotations.
Local Open Scope Z_scope.

Section IntervalMap.
Variable V : Type.
Variable veq : V -> V -> bool.      (* operator== of _Value *)

Definition imap := list (Z * V).

(* std::map::lower_bound / upper_bound: first node with key >= k / > k *)
Fixpoint lower_bound (m : imap) (k : Z) : option Z :=
  match m with
  | [] => None
  | (k', _) :: t => if k' <? k then lower_bound t k else Some k'
  end.
Fixpoint upper_bound (m : imap) (k : Z) : option Z :=
  match m with
  | [] => None
  | (k', _) :: t => if k' <=? k then upper_bound t k else Some k'
  end.

(* last node of the list, None for the empty list *)
Fixpoint last_key (m : imap) : option Z :=
  match m with
  | [] => None
  | [(k, _)] => Some k
  | _ :: t => last_key t
  end.
(* nodes before an iterator *)
Definition before (m : imap) (it : option Z) : imap :=
  match it with
  | None => m
  | Some k => filter (fun p => fst p <? k) m
  end.
(* operator-- of the map iterator; None = UB (decrement of begin()) *)
Definition prev (m : imap) (it : option Z) : option Z := last_key (before m it).
(* operator++ of the map iterator on a dereferenceable iterator *)
Definition next (m : imap) (k : Z) : option Z := upper_bound m k.
(* it->second ; None = UB *)
Fixpoint get (m : imap) (k : Z) : option V :=
  match m with
  | [] => None
  | (k', v) :: t => if k' =? k then Some v else get t k
  end.
Definition is_begin (m : imap) (it : option Z) : bool :=
  match m, it with
  | [], None => true
  | [], Some _ => false
  | (k, _) :: _, Some k' => k =? k'
  | _ :: _, None => false
  end.

(* std::map::emplace_hint: inserts the node in key order unless the key exists *)
Fixpoint insert (m : imap) (k : Z) (v : V) : imap :=
  match m with
  | [] => [(k, v)]
  | (k', v') :: t =>
      if k <? k' then (k, v) :: m
      else if k =? k' then m
      else (k', v') :: insert t k v
  end.
(* it->second = v *)
Fixpoint set (m : imap) (k : Z) (v : V) : imap :=
  match m with
  | [] => []
  | (k', v') :: t => if k' =? k then (k', v) :: t else (k', v') :: set t k v
  end.
(* std::map::erase(first, last) *)
Definition in_range (a : option Z) (b : option Z) (k : Z) : bool :=
  match a with
  | None => false
  | Some a => (a <=? k) && match b with None => true | Some b => k <? b end
  end.
Definition erase_range (m : imap) (a b : option Z) : imap :=
  filter (fun p => negb (in_range a b (fst p))) m.

(* interval_map.h:34-57  constructor / _init_whole_range *)
Definition init (lo : Z) (d : V) : imap := [(lo, d)].

Definition same_key (it : option Z) (k : Z) : bool :=
  match it with
  | None => false
  | Some k' => negb ((k' <? k) || (k <? k'))
  end.

(* interval_map.h:87-117  position for the end point; returns (m, endIt) *)
Definition end_point (m : imap) (ke : Z) (val : V) : option (imap * option Z) :=
  let endIt := lower_bound m ke in
  let step1 : option (option Z * bool) :=
    match endIt with
    | Some k =>                                                  (* 90-97 *)
        match get m k with
        | None => None
        | Some v => if same_key endIt ke && veq v val
                    then Some (next m k, true) else Some (endIt, false)
        end
    | None =>                                                    (* 99-105 *)
        match prev m None with
        | None => None
        | Some t => match get m t with
                    | None => None
                    | Some v => Some (endIt, veq v val)
                    end
        end
    end in
  match step1 with
  | None => None
  | Some (endIt, true) => Some (m, endIt)
  | Some (endIt, false) =>                                       (* 107-117 *)
      match prev m endIt with
      | None => None
      | Some t =>
          match get m t with
          | None => None
          | Some v =>
              if same_key endIt ke || veq v val then Some (m, endIt)
              else Some (insert m ke v, Some ke)
          end
      end
  end.

(* interval_map.h:118-142  position for the begin point; returns (m, beginIt) *)
Definition begin_point (m : imap) (kb : Z) (val : V) : option (imap * Z) :=
  let beginIt := lower_bound m kb in
  let step1 : option (option Z) :=             (* Some (Some p): beginFound at p *)
    if is_begin m beginIt then Some None
    else match prev m beginIt with
         | None => None
         | Some p => match get m p with
                     | None => None
                     | Some v => Some (if veq v val then Some p else None)
                     end
         end in
  match step1 with
  | None => None
  | Some (Some p) => Some (m, p)
  | Some None =>
      if same_key beginIt kb then Some (set m kb val, kb)
      else Some (insert m kb val, kb)
  end.

(* interval_map.h:84-146  assign *)
Definition assign (m : imap) (kb ke : Z) (val : V) : option imap :=
  if kb <? ke then
    match end_point m ke val with
    | None => None
    | Some (m1, endIt) =>
        match begin_point m1 kb val with
        | None => None
        | Some (m2, b) => Some (erase_range m2 (next m2 b) endIt)   (* 144 *)
        end
    end
  else Some m.

(* interval_map.h:151-154  operator[] ; None = UB *)
Definition read (m : imap) (k : Z) : option V :=
  match prev m (upper_bound m k) with
  | None => None
  | Some p => get m p
  end.

(* a client program: a list of assign calls, None as soon as one is UB *)
Record call := Call { cbeg : Z; cend : Z; cval : V }.
Fixpoint run (m : imap) (cs : list call) : option imap :=
  match cs with
  | [] => Some m
  | c :: t => match assign m (cbeg c) (cend c) (cval c) with
              | None => None
              | Some m' => run m' t
              end
  end.

(* ---- specification, independent of the model above ---- *)

(* value of the last call whose interval contains k, else d *)
Definition spec_read (d : V) (cs : list call) (k : Z) : V :=
  fold_left (fun acc c => if (cbeg c <=? k) && (k <? cend c) then cval c else acc) cs d.

(* strictly increasing breakpoints, each changing the value in force *)
Fixpoint canonical_from (k : Z) (v : V) (m : imap) : Prop :=
  match m with
  | [] => True
  | (k', v') :: t => k < k' /\ v' <> v /\ canonical_from k' v' t
  end.
Definition canonical (lo : Z) (m : imap) : Prop :=
  match m with
  | [] => False
  | (k, v) :: t => k = lo /\ canonical_from k v t
  end.

End IntervalMap.
Arguments Call {V}. Arguments cbeg {V}. Arguments cend {V}. Arguments cval {V}.
