(* Ranges and their lazy iterators:
   /repo/include/yato/range.h, transform_iterator.h, filter_iterator.h,
   zip_iterator.h, numeric_iterator.h, tuple.h (and storage.h where the
   caching filter keeps its element).

   An iterator type is a record of the operations the C++ class offers; every
   class template taking an iterator type becomes a function from such records
   to such records.  Undefined behaviour is the outcome [Bad].  Loops carry a
   fuel argument; running out is the separate outcome [NoFuel].

   Simplifications.
   - Release build: YATO_ASSERT is empty and narrow_cast does not check
     (assertion.h, types.h:50-59).
   - The functions given to map and filter are pure and return by value.
   - Element types are Coq types; a reference obtained by dereferencing is
     represented by the value read through it at once.  Whether that reference
     points into the iterator object itself is the flag [stash].
   - Postfix ++ and --, assignment and swap of iterators, and conversions
     between iterators of different types are not modelled; to_set is not
     modelled. *)
From Coq Require Import ZArith List Bool.
Import ListNotations.
Local Open Scope Z_scope.

Inductive res (A : Type) : Type :=
| Ok (a : A)
| Bad          (* undefined behaviour *)
| NoFuel.      (* the loop did not finish within the fuel *)
Arguments Ok {A} a.
Arguments Bad {A}.
Arguments NoFuel {A}.

Definition bind {A B} (x : res A) (f : A -> res B) : res B :=
  match x with Ok a => f a | Bad => Bad | NoFuel => NoFuel end.

Notation "'do' x <- e ; k" := (bind e (fun x => k))
  (at level 200, x pattern, e at level 100, k at level 200).

(* std::iterator_traits<...>::iterator_category *)
Inductive category := Forward | Bidirectional | RandomAccess.

Definition cat_min (a b : category) : category :=
  match a, b with
  | Forward, _ | _, Forward => Forward
  | Bidirectional, _ | _, Bidirectional => Bidirectional
  | _, _ => RandomAccess
  end.

(* What an iterator class offers.  [copy] is the copy constructor. *)
Record iterator (A : Type) : Type := MkIter {
  state : Type;
  cat : category;
  stash : bool;      (* does the reference point into the iterator object? *)
  copy : state -> res state;
  inc : nat -> state -> res state;        (* ++it *)
  dec : nat -> state -> res state;        (* --it *)
  deref : nat -> state -> res A;          (* *it *)
  ne : state -> state -> bool;            (* it != other *)
  lt : state -> state -> bool;            (* it < other *)
  add : Z -> state -> res state;          (* it += n *)
  sub : Z -> state -> res state;          (* it -= n *)
  diff : state -> state -> res Z          (* it - other *)
}.
Arguments MkIter {A} state cat stash copy inc dec deref ne lt add sub diff.
Arguments state {A} i.
Arguments cat {A} i.
Arguments stash {A} i.
Arguments copy {A} i _.
Arguments inc {A} i _ _.
Arguments dec {A} i _ _.
Arguments deref {A} i _ _.
Arguments ne {A} i _ _.
Arguments lt {A} i _ _.
Arguments add {A} i _ _.
Arguments sub {A} i _ _.
Arguments diff {A} i _ _.

(* range.h:29-47: a pair of iterators of the same type.  Ranges whose end has
   another type (is_uniform = false) are not modelled. *)
Record range (A : Type) : Type := MkRange {
  iter : iterator A;
  rfirst : state iter;
  rlast : state iter
}.
Arguments MkRange {A} iter rfirst rlast.
Arguments iter {A} r.
Arguments rfirst {A} r.
Arguments rlast {A} r.

(* ---- container iterators (standard library) ----
   A position in the sequence [l]; leaving [0, length l], or reading outside
   [0, length l), is undefined. *)
Definition move_to {A} (l : list A) (i : Z) : res Z :=
  if (0 <=? i) && (i <=? Z.of_nat (length l)) then Ok i else Bad.

Definition container_iter {A} (c : category) (l : list A) : iterator A := {|
  state := Z;
  cat := c;
  stash := false;
  copy := Ok;
  inc := fun _ i => move_to l (i + 1);
  dec := fun _ i => match c with Forward => Bad | _ => move_to l (i - 1) end;
  deref := fun _ i =>
    if 0 <=? i then match nth_error l (Z.to_nat i) with Some a => Ok a | None => Bad end
    else Bad;
  ne := fun i j => negb (i =? j);
  lt := fun i j => i <? j;
  add := fun z i => move_to l (i + z);
  sub := fun z i => move_to l (i - z);
  diff := fun i j => Ok (i - j)
|}.

(* make_range(begin, end), range.h:213-218, on two positions of a container *)
Definition container_range {A} (c : category) (l : list A) (i j : Z) : range A :=
  MkRange (container_iter c l) i j.

(* ---- numeric_iterator, numeric_iterator.h:21-160 ---- *)
Record ity := MkIty { bits : Z; sgn : bool }.

Definition ilo (t : ity) : Z := if sgn t then - 2 ^ (bits t - 1) else 0.
Definition ihi (t : ity) : Z := if sgn t then 2 ^ (bits t - 1) - 1 else 2 ^ bits t - 1.

(* Result of ++, --, +=, -= on a value of type t.  Unsigned arithmetic wraps;
   signed overflow is undefined.  (For signed types narrower than int the
   result is converted back instead; it is treated as undefined here too.) *)
Definition int_result (t : ity) (v : Z) : res Z :=
  if (ilo t <=? v) && (v <=? ihi t) then Ok v
  else if sgn t then Bad else Ok (v mod 2 ^ bits t).

(* m_value - right.m_value converted to ptrdiff_t, numeric_iterator.h:123-126.
   Types narrower than int are promoted to int. *)
Definition to_ptrdiff (v : Z) : Z := (v + 2 ^ 63) mod 2 ^ 64 - 2 ^ 63.

Definition int_difference (t : ity) (v u : Z) : res Z :=
  if bits t <? 32 then Ok (v - u)
  else if sgn t then
    if (- 2 ^ (bits t - 1) <=? v - u) && (v - u <=? 2 ^ (bits t - 1) - 1) then Ok (v - u) else Bad
  else Ok (to_ptrdiff ((v - u) mod 2 ^ bits t)).

(* operator* returns a reference to the member m_value, lines 54-58: the
   reference dies with the iterator object. *)
Definition numeric_iter (t : ity) : iterator Z := {|
  state := Z;
  cat := RandomAccess;
  stash := true;
  copy := Ok;
  inc := fun _ v => int_result t (v + 1);
  dec := fun _ v => int_result t (v - 1);
  deref := fun _ v => Ok v;
  ne := fun v u => negb (v =? u);
  lt := fun v u => v <? u;
  add := fun z v => int_result t (v + z);
  sub := fun z v => int_result t (v - z);
  diff := int_difference t
|}.

(* numeric_range(first, last) with both arguments of type t, range.h:255-262;
   numeric_range(last), range.h:244-250, is the same with first = 0. *)
Definition numeric_range (t : ity) (first last : Z) : range Z :=
  MkRange (numeric_iter t) first last.

(* ---- transform_iterator, transform_iterator.h:21-380 ---- *)
Definition transform_iter {A B} (f : A -> B) (i : iterator A) : iterator B := {|
  state := state i;
  cat := cat i;                                                (* :35 *)
  stash := false;        (* operator* returns the function's result by value, :190-202 *)
  copy := copy i;                                              (* :102-105 *)
  inc := inc i;                                                (* :207-211 *)
  dec := dec i;                                                (* :226-232 *)
  deref := fun n s => do a <- deref i n s; Ok (f a);           (* :190-202 *)
  ne := ne i;                                                  (* != is !(==), :291-304 *)
  lt := lt i;                                                  (* :309-315 *)
  add := add i;                                                (* :249-255 *)
  sub := fun z s => add i (- z) s;                             (* :260-265 *)
  diff := diff i                                               (* :281-286 *)
|}.

(* range::map, range.h:126-133 *)
Definition rmap {A B} (f : A -> B) (r : range A) : res (range B) :=
  do b <- copy (iter r) (rfirst r);
  do e <- copy (iter r) (rlast r);
  Ok (MkRange (transform_iter f (iter r)) b e).

(* ---- filter_iterator without caching, filter_iterator.h:127-448 ---- *)
Record filter_state (S : Type) := MkFs { pos : S; stop : S }.
Arguments MkFs {S} pos stop.
Arguments pos {S} _.
Arguments stop {S} _.

Section Filter.
Context {A : Type} (p : A -> bool) (i : iterator A).

(* _skip_forward, no caching, :190-197 *)
Fixpoint skip_forward (k n : nat) (e s : state i) : res (state i) :=
  match k with
  | O => NoFuel
  | S k' =>
    if ne i s e then
      do a <- deref i n s;
      if p a then Ok s
      else do s' <- inc i n s; skip_forward k' n e s'
    else Ok s
  end.

(* _skip_backward, no caching, :212-219 *)
Fixpoint skip_backward (k n : nat) (s : state i) : res (state i) :=
  match k with
  | O => NoFuel
  | S k' =>
    do a <- deref i n s;
    if p a then Ok s
    else do s' <- dec i n s; skip_backward k' n s'
  end.

(* "Category is not greater than bidirectional", :151-153 *)
Definition filter_cat (c : category) : category :=
  match c with RandomAccess => Bidirectional | c => c end.

Definition filter_iter : iterator A := {|
  state := filter_state (state i);
  cat := filter_cat (cat i);
  stash := stash i;          (* operator* is *m_iterator, :354-359 *)
  copy := fun s => do x <- copy i (pos s); do y <- copy i (stop s); Ok (MkFs x y);  (* :239-241 *)
  inc := fun n s =>                                             (* :372-377 *)
    do x <- inc i n (pos s);
    do y <- skip_forward n n (stop s) x;
    Ok (MkFs y (stop s));
  dec := fun n s =>                                             (* :392-399 *)
    do x <- dec i n (pos s);
    do y <- skip_backward n n x;
    Ok (MkFs y (stop s));
  deref := fun n s => deref i n (pos s);
  ne := fun s t => ne i (pos s) (pos t);                        (* :416-419 *)
  lt := fun _ _ => false;                                       (* not offered *)
  add := fun _ _ => Bad;                                        (* not offered *)
  sub := fun _ _ => Bad;                                        (* not offered *)
  diff := fun _ _ => Bad                                        (* not offered *)
|}.

(* constructor, :228-234 *)
Definition filter_make (n : nat) (b e : state i) : res (filter_state (state i)) :=
  do x <- copy i b;
  do y <- copy i e;
  do z <- skip_forward n n y x;
  Ok (MkFs z y).

End Filter.

(* ---- filter_iterator without an end, filter_iterator.h:452-768 ----
   Only the search of the next match is modelled, :515-522 (no caching); ++ is
   one step of the underlying iterator followed by it (:699-704). *)
Fixpoint seek {A} (p : A -> bool) (i : iterator A) (k n : nat) (s : state i) : res (state i) :=
  match k with
  | O => NoFuel
  | S k' =>
    do a <- deref i n s;
    if p a then Ok s
    else do s' <- inc i n s; seek p i k' n s'
  end.

(* range::filter, range.h:138-145, with dereference_policy_no_caching *)
Definition rfilter {A} (n : nat) (p : A -> bool) (r : range A) : res (range A) :=
  do b <- filter_make p (iter r) n (rfirst r) (rlast r);
  do e <- filter_make p (iter r) n (rlast r) (rlast r);
  Ok (MkRange (filter_iter p (iter r)) b e).

(* ---- filter_iterator with dereference_policy_caching ---- *)

(* Where storage<T,64> keeps the cached element (storage.h:256-257) and whether
   T is trivially copyable and destructible:
   CTrivial - a small trivial T, kept in place: destroying or copying the raw
     buffer has no effect beyond bytes;
   CStack - a small T with a real destructor or copy constructor, in place;
   CHeap - a large T, kept by unique_ptr. *)
Inductive cache_kind := CTrivial | CStack | CHeap.

Record cached_state (S A : Type) := MkCs { cpos : S; cstop : S; cache : option A }.
Arguments MkCs {S A} cpos cstop cache.
Arguments cpos {S A} _.
Arguments cstop {S A} _.
Arguments cache {S A} _.

(* m_cached = obj: a temporary storage is made from obj and move assigned.
   In place that destroys the current content first (storage.h:202-209); on the
   heap the pointer is replaced (storage.h:77-83). *)
Definition save_cache {A} (c : cache_kind) (old : option A) (a : A) : res (option A) :=
  match c, old with
  | CStack, None => Bad
  | _, _ => Ok (Some a)
  end.

(* Copy construction of the storage: *other.get(), storage.h:47-50, 167-170 *)
Definition copy_cache {A} (c : cache_kind) (x : option A) : res (option A) :=
  match c, x with
  | CTrivial, _ => Ok x
  | _, None => Bad
  | _, Some _ => Ok x
  end.

(* Move construction of the storage, storage.h:52-55, 172-175 *)
Definition move_cache {A} (c : cache_kind) (x : option A) : res (option A) :=
  match c, x with
  | CStack, None => Bad
  | _, _ => Ok x
  end.

Section CachingFilter.
Context {A : Type} (ck : cache_kind) (p : A -> bool) (i : iterator A).

(* _skip_forward, caching, :177-188 *)
Fixpoint cskip_forward (k n : nat) (e s : state i) (c : option A)
  : res (state i * option A) :=
  match k with
  | O => NoFuel
  | S k' =>
    if ne i s e then
      do a <- deref i n s;
      do c' <- save_cache ck c a;
      if p a then Ok (s, c')
      else do s' <- inc i n s; cskip_forward k' n e s' c'
    else Ok (s, c)
  end.

(* _skip_backward, caching, :199-210 *)
Fixpoint cskip_backward (k n : nat) (s : state i) (c : option A)
  : res (state i * option A) :=
  match k with
  | O => NoFuel
  | S k' =>
    do a <- deref i n s;
    do c' <- save_cache ck c a;
    if p a then Ok (s, c')
    else do s' <- dec i n s; cskip_backward k' n s' c'
  end.

Definition caching_iter : iterator A := {|
  state := cached_state (state i) A;
  cat := filter_cat (cat i);
  stash := true;            (* operator* is the cache inside the iterator, :344-349 *)
  copy := fun s =>                                              (* :239-241 *)
    do c <- copy_cache ck (cache s);
    do x <- copy i (cpos s); do y <- copy i (cstop s); Ok (MkCs x y c);
  inc := fun n s =>
    do x <- inc i n (cpos s);
    do yc <- cskip_forward n n (cstop s) x (cache s);
    Ok (MkCs (fst yc) (cstop s) (snd yc));
  dec := fun n s =>
    do x <- dec i n (cpos s);
    do yc <- cskip_backward n n x (cache s);
    Ok (MkCs (fst yc) (cstop s) (snd yc));
  deref := fun _ s => match cache s with Some a => Ok a | None => Bad end;
  ne := fun s t => ne i (cpos s) (cpos t);
  lt := fun _ _ => false;
  add := fun _ _ => Bad;
  sub := fun _ _ => Bad;
  diff := fun _ _ => Bad
|}.

(* constructor, :228-234: the cache starts unset *)
Definition caching_make (n : nat) (b e : state i) : res (cached_state (state i) A) :=
  do x <- copy i b;
  do y <- copy i e;
  do zc <- cskip_forward n n y x None;
  Ok (MkCs (fst zc) y (snd zc)).

End CachingFilter.

(* range::filter<dereference_policy_caching>; the two iterators are moved into
   the range (range.h:51-53) *)
Definition rfilter_caching {A} (ck : cache_kind) (n : nat) (p : A -> bool) (r : range A)
  : res (range A) :=
  do b <- caching_make ck p (iter r) n (rfirst r) (rlast r);
  do e <- caching_make ck p (iter r) n (rlast r) (rlast r);
  do cb <- move_cache ck (cache b);
  do ce <- move_cache ck (cache e);
  Ok (MkRange (caching_iter ck p (iter r))
        (MkCs (cpos b) (cstop b) cb) (MkCs (cpos e) (cstop e) ce)).

(* ---- zip_iterator, zip_iterator.h:19-380 ----
   The tuple of iterators is a right-nested pair ended by unit; the tuple
   algorithms of tuple.h are recursions over it. *)
Definition nil_iter : iterator unit := {|
  state := unit;
  cat := RandomAccess;
  stash := false;
  copy := Ok;
  inc := fun _ s => Ok s;
  dec := fun _ s => Ok s;
  deref := fun _ _ => Ok tt;
  ne := fun _ _ => false;            (* tuple_any_of of nothing *)
  lt := fun _ _ => true;             (* tuple_all_of of nothing *)
  add := fun _ s => Ok s;
  sub := fun _ s => Ok s;
  diff := fun _ _ => Ok 0            (* never reached *)
|}.

Definition cons_iter {A B} (i : iterator A) (j : iterator B) : iterator (A * B) := {|
  state := state i * state j;
  cat := cat_min (cat i) (cat j);                                       (* :49 *)
  stash := stash i || stash j;
  copy := fun s => do x <- copy i (fst s); do y <- copy j (snd s); Ok (x, y);
  inc := fun n s => do x <- inc i n (fst s); do y <- inc j n (snd s); Ok (x, y);   (* :235-239 *)
  dec := fun n s => do x <- dec i n (fst s); do y <- dec j n (snd s); Ok (x, y);   (* :254-260 *)
  deref := fun n s => do a <- deref i n (fst s); do b <- deref j n (snd s); Ok (a, b); (* :227-230 *)
  ne := fun s t => ne i (fst s) (fst t) || ne j (snd s) (snd t);        (* any_of, :331-334 *)
  lt := fun s t => lt i (fst s) (fst t) && lt j (snd s) (snd t);        (* all_of, :339-344 *)
  add := fun z s => do x <- add i z (fst s); do y <- add j z (snd s); Ok (x, y);   (* :277-283 *)
  sub := fun z s => do x <- add i (- z) (fst s); do y <- add j (- z) (snd s); Ok (x, y); (* :288-294 *)
  diff := fun s t => diff i (fst s) (fst t)                             (* first component, :311-316 *)
|}.

(* std::make_tuple(begin(), ranges.begin()...) and the same for end, range.h:150-157 *)
Definition znil : range unit := MkRange nil_iter tt tt.

Definition zcons {A B} (r : range A) (q : range B) : res (range (A * B)) :=
  do b <- copy (iter r) (rfirst r);
  do e <- copy (iter r) (rlast r);
  Ok (MkRange (cons_iter (iter r) (iter q)) (b, rfirst q) (e, rlast q)).

(* ---- std::reverse_iterator and range::reverse, range.h:75-97 ----
   operator* copies the base iterator, decrements the copy and dereferences it;
   a reference into that copy dangles at once. *)
Definition reverse_iter {A} (i : iterator A) : iterator A := {|
  state := state i;
  cat := cat i;
  stash := stash i;
  copy := copy i;
  inc := dec i;
  dec := inc i;
  deref := fun n s =>
    do t <- copy i s;
    do t' <- dec i n t;
    if stash i then Bad else deref i n t';
  ne := ne i;
  lt := fun s t => lt i t s;
  add := sub i;
  sub := add i;
  diff := fun s t => diff i t s
|}.

Definition rreverse {A} (r : range A) : res (range A) :=
  do b <- copy (iter r) (rlast r);
  do e <- copy (iter r) (rfirst r);
  Ok (MkRange (reverse_iter (iter r)) b e).

(* ---- the remaining members of range ---- *)

(* std::next, used by tail: += 1 for random access iterators, ++ otherwise *)
Definition std_next {A} (n : nat) (i : iterator A) (s : state i) : res (state i) :=
  do t <- copy i s;
  match cat i with
  | RandomAccess => add i 1 t
  | _ => inc i n t
  end.

(* tail, range.h:117-121 *)
Definition rtail {A} (n : nat) (r : range A) : res (range A) :=
  do b <- std_next n (iter r) (rfirst r);
  do e <- copy (iter r) (rlast r);
  Ok (MkRange (iter r) b e).

(* empty, range.h:105-109 *)
Definition rempty {A} (r : range A) : bool := negb (ne (iter r) (rfirst r) (rlast r)).

(* head, range.h:111-115, dereferenced *)
Definition rhead {A} (n : nat) (r : range A) : res A := deref (iter r) n (rfirst r).

(* the loop of std::distance for iterators without random access *)
Fixpoint count {A} (k n : nat) (i : iterator A) (s e : state i) : res Z :=
  match k with
  | O => NoFuel
  | S k' =>
    if ne i s e then do s' <- inc i n s; do c <- count k' n i s' e; Ok (1 + c)
    else Ok 0
  end.

(* distance, range.h:99-103 *)
Definition rdistance {A} (n : nat) (r : range A) : res Z :=
  do b <- copy (iter r) (rfirst r);
  do e <- copy (iter r) (rlast r);
  match cat (iter r) with
  | RandomAccess => diff (iter r) e b
  | _ => count n n (iter r) b e
  end.

(* std::accumulate: for (; first != last; ++first) acc = f(acc, *first) *)
Fixpoint accumulate {A B} (k n : nat) (i : iterator A) (f : B -> A -> B) (s e : state i) (acc : B)
  : res B :=
  match k with
  | O => NoFuel
  | S k' =>
    if ne i s e then
      do a <- deref i n s;
      do s' <- inc i n s;
      accumulate k' n i f s' e (f acc a)
    else Ok acc
  end.

(* fold_left, range.h:162-167 *)
Definition rfold_left {A B} (n : nat) (f : B -> A -> B) (z : B) (r : range A) : res B :=
  do b <- copy (iter r) (rfirst r);
  do e <- copy (iter r) (rlast r);
  accumulate n n (iter r) f b e z.

(* fold_right, range.h:172-177: accumulate over rbegin(), rend() *)
Definition rfold_right {A B} (n : nat) (f : B -> A -> B) (z : B) (r : range A) : res B :=
  do q <- rreverse r;
  accumulate n n (iter q) f (rfirst q) (rlast q) z.

(* the elements met by "for (; b != e; ++b)" *)
Fixpoint elements {A} (k n : nat) (i : iterator A) (s e : state i) : res (list A) :=
  match k with
  | O => NoFuel
  | S k' =>
    if ne i s e then
      do a <- deref i n s;
      do s' <- inc i n s;
      do l <- elements k' n i s' e;
      Ok (a :: l)
    else Ok []
  end.

(* a range-based for loop, and to_list (range.h:192-197): the elements met
   between copies of begin() and end() *)
Definition rlist {A} (n : nat) (r : range A) : res (list A) :=
  do b <- copy (iter r) (rfirst r);
  do e <- copy (iter r) (rlast r);
  elements n n (iter r) b e.

(* to_vector, range.h:182-187.  The vector allocates std::distance(begin, end)
   slots and then copies the elements met: more elements than slots overrun the
   buffer.  A negative distance (length_error) is treated as undefined too. *)
Definition rvector {A} (n : nat) (r : range A) : res (list A) :=
  do d <- rdistance n r;
  do l <- rlist n r;
  if Z.of_nat (length l) <=? d then Ok l else Bad.

(* ---- pipelines: expressions built from the members of range ---- *)
Inductive policy := NoCache | Cache (c : cache_kind).

Inductive pipe : Type -> Type :=
| Container : forall A, category -> list A -> Z -> Z -> pipe A
    (* make_range of two positions of a container *)
| Numeric : ity -> Z -> Z -> pipe Z
| Map : forall A B, (A -> B) -> pipe A -> pipe B
| Filter : forall A, policy -> (A -> bool) -> pipe A -> pipe A
| Reverse : forall A, pipe A -> pipe A
| Tail : forall A, pipe A -> pipe A
| Zip : forall A B, pipe A -> pipes B -> pipe (A * B)
    (* p.zip(q1, ..., qn): tuples nested to the right *)
with pipes : Type -> Type :=
| ZNil : pipes unit
| ZCons : forall A B, pipe A -> pipes B -> pipes (A * B).
Arguments Container {A} c l i j.
Arguments Map {A B} f p.
Arguments Filter {A} d f p.
Arguments Reverse {A} p.
Arguments Tail {A} p.
Arguments Zip {A B} p q.
Arguments ZCons {A B} p q.

(* the range the expression evaluates to *)
Fixpoint eval {A} (n : nat) (p : pipe A) : res (range A) :=
  match p in pipe A return res (range A) with
  | Container c l i j => Ok (container_range c l i j)
  | Numeric t a b => Ok (numeric_range t a b)
  | Map f q => do r <- eval n q; rmap f r
  | Filter NoCache f q => do r <- eval n q; rfilter n f r
  | Filter (Cache c) f q => do r <- eval n q; rfilter_caching c n f r
  | Reverse q => do r <- eval n q; rreverse r
  | Tail q => do r <- eval n q; rtail n r
  | Zip q qs => do r <- eval n q; do z <- evals n qs; zcons r z
  end
with evals {A} (n : nat) (p : pipes A) : res (range A) :=
  match p in pipes A return res (range A) with
  | ZNil => Ok znil
  | ZCons q qs => do r <- eval n q; do z <- evals n qs; zcons r z
  end.

(* a program moving an iterator about: true is ++it, false is --it *)
Fixpoint walk {A} (n : nat) (i : iterator A) (w : list bool) (s : state i) : res (state i) :=
  match w with
  | [] => Ok s
  | true :: w' => do t <- inc i n s; walk n i w' t
  | false :: w' => do t <- dec i n s; walk n i w' t
  end.
