(* C104: optionals made from optionals. *)
From Coq Require Import List Bool Arith Lia.
From Verif Require Import NestModel NestSpec NestProofs.
Import ListNotations.

(* Which optionals and values can be made from which: everything with bool or any
   at the bottom can be made from everything; with another number at the bottom,
   from numbers under at most as many optionals. *)
Theorem C104_which_can_be_made : forall t s, plain t -> plain s ->
  (constructible t s = true <->
   base t = Flag \/ base t = Any \/ (base s = Num \/ base s = Flag) /\ depth s <= depth t).
Proof. exact conv_exact. Qed.
Print Assumptions C104_which_can_be_made.

Example C104_which_can_be_made_ex :
  constructible (Opt (Opt Num)) (Opt Flag) = true /\ constructible (Opt Num) (Opt (Opt Num)) = false /\
  constructible (Opt Flag) (Opt (Opt Num)) = true.
Proof. repeat split. Qed.

(* What can be made is made, in every way of giving the source, and is a value of
   the type. *)
Theorem C104_made_or_rejected : forall t s c v, plain t -> typed s v ->
  (constructible t s = true -> exists w, build t s c v = Some w /\ typed t w) /\
  (constructible t s = false -> build t s c v = None).
Proof.
  intros t s c v P T. pose proof (build_typed t s c v P T) as H.
  split; intros E; rewrite E in H; exact H.
Qed.
Print Assumptions C104_made_or_rejected.

Example C104_made_or_rejected_ex :
  build (Opt (Opt Num)) (Opt Flag) R (VOpt (Some (VFlag true))) = Some (VOpt (Some (VOpt (Some (VNum 1))))) /\
  build (Opt Num) (Opt (Opt Num)) R (VOpt None) = None.
Proof. split; reflexivity. Qed.

(* What is at the bottom: a number goes through any such construction, from a
   variable or not, and is found at the bottom iff there was one; a bool made from a
   number says whether it is not zero; an any made from something else holds it. *)
Theorem C104_values : forall t s c v w, typed s v -> build t s c v = Some w ->
  (base t = Num -> plain s -> core t w = option_map (fun x => VNum (amount x)) (core s v)) /\
  (base t = Flag -> s = Num \/ s = Flag -> core t w = Some (VFlag (negb (amount v =? 0)))) /\
  (t = Any -> s <> Any -> w = VAny (Some (s, v))).
Proof.
  intros t s c v w T E. split; [|split].
  - intros B P. exact (core_num t s c v w B P T E).
  - intros B P. exact (core_flag t s c v w B P T E).
  - intros -> N. cbn in E. destruct s, c; try congruence; injection E as <-; reflexivity.
Qed.
Print Assumptions C104_values.

Example C104_values_ex :
  build (Opt (Opt Num)) (Opt Flag) L (VOpt (Some (VFlag true))) = Some (VOpt (Some (VOpt (Some (VNum 1))))) /\
  build (Opt Flag) Num R (VNum 7) = Some (VOpt (Some (VFlag true))).
Proof. split; reflexivity. Qed.

(* A copy equals the original: of a const variable and of a temporary, and of any
   variable unless bool or any is at the bottom. *)
Theorem C104_copies : forall t c v, typed t v -> settled c \/ base t = Num -> build t t c v = Some v.
Proof. exact build_copy. Qed.
Print Assumptions C104_copies.

Example C104_copies_ex :
  build (Opt (Opt Num)) (Opt (Opt Num)) L (VOpt (Some (VOpt None))) = Some (VOpt (Some (VOpt None))) /\
  build (Opt Flag) (Opt Flag) R (VOpt (Some (VFlag false))) = Some (VOpt (Some (VFlag false))) /\
  build (Std Num) (Std Num) R (VStd (Some (VNum 2))) = Some (VStd (Some (VNum 2))).
Proof. repeat split. Qed.

(* Converting a const optional, a temporary one or, if the new value cannot be made
   from the optional itself, any optional to one of another type: the new one has a
   value iff the old one has, made from the old one's value. *)
Theorem C104_conversions : forall t u c o, plain t -> t <> u -> constructible t u = true ->
  typed (Opt u) (VOpt o) -> settled c \/ constructible t (Opt u) = false ->
  exists r, build (Opt t) (Opt u) c (VOpt o) = Some r /\
    follows (fun x w => build t u (match c with R => R | _ => ConstL end) x = Some w /\ typed t w) o r.
Proof. intros t u c o P N C T H. exact (convert_follows t u c o P T N C H). Qed.
Print Assumptions C104_conversions.

Example C104_conversions_ex :
  build (Opt Num) (Opt Flag) L (VOpt (Some (VFlag true))) = Some (VOpt (Some (VNum 1))) /\
  build (Opt Flag) (Opt Num) ConstL (VOpt (Some (VNum 0))) = Some (VOpt (Some (VFlag false))) /\
  build (Opt Flag) (Opt Num) R (VOpt None) = Some (VOpt None).
Proof. repeat split. Qed.

(* Otherwise, from a variable that is not const, the result always has a value,
   made from the optional itself. *)
Theorem C104_variables : forall t s c v, plain t -> typed s v -> optional s \/ (exists u, s = Std u) ->
  ~ settled c -> constructible t s = true ->
  exists w, build (Opt t) s c v = Some (VOpt (Some w)) /\ build t s c v = Some w /\ typed t w.
Proof.
  intros t s c v P T S N C. destruct (build_some t s c v P T C) as (w & E & Tw). exists w.
  split; [|auto].
  assert (W : whole t s c = true) by (destruct c; cbn [settled whole] in *; tauto).
  destruct S as [S|(u & ->)].
  - destruct s as [| | |u|u]; try destruct S. destruct (typed_opt _ _ T) as (o & -> & _).
    rewrite build_opt, W, E. reflexivity.
  - destruct (typed_std _ _ T) as (o & -> & _). rewrite build_std, W, E. reflexivity.
Qed.
Print Assumptions C104_variables.

Example C104_variables_ex :
  build (Opt Any) (Opt Num) L (VOpt None) = Some (VOpt (Some (VAny (Some (Opt Num, VOpt None))))) /\
  build (Opt Flag) (Std Num) L (VStd (Some (VNum 0))) = Some (VOpt (Some (VFlag true))).
Proof. split; reflexivity. Qed.

(* So a conversion of a variable need not follow it: an optional<bool> made from a
   variable optional<int> that is empty holds false, and one made from a zero holds
   true; a copy of an optional<bool> variable that holds false holds true. *)
Theorem C104_variables_follow_refuted :
  (exists t u v, typed (Opt u) v /\ build (Opt t) (Opt u) ConstL v = Some (VOpt None) /\
     build (Opt t) (Opt u) L v = Some (VOpt (Some (VFlag false)))) /\
  (exists t u v, typed (Opt u) v /\ build (Opt t) (Opt u) ConstL v = Some (VOpt (Some (VFlag false))) /\
     build (Opt t) (Opt u) L v = Some (VOpt (Some (VFlag true)))) /\
  (exists t v w, typed (Opt t) v /\ build (Opt t) (Opt t) L v = Some w /\ w <> v).
Proof.
  split; [|split].
  - exists Flag, Num, (VOpt None). repeat split.
  - exists Flag, Num, (VOpt (Some (VNum 0))). repeat split.
  - exists Flag, (VOpt (Some (VFlag false))), (VOpt (Some (VFlag true))). repeat split. discriminate.
Qed.
Print Assumptions C104_variables_follow_refuted.

(* make_optional and some: of a value that is no optional they make an optional
   with that value; of a const or temporary nested optional they add a level not
   around it but at the bottom, so that what is empty stays empty at the same
   level; and of a variable one that holds the variable's value. *)
Theorem C104_making : forall t c v, plain t -> typed t v ->
  (settled c -> make t c v = Some (deepen t v)) /\
  some t v = Some (deepen t v) /\
  (~ optional t -> deepen t v = VOpt (Some v)) /\
  (~ settled c -> base t = Num -> make t c v = Some (VOpt (Some v))).
Proof.
  intros t c v P T. split; [|split; [|split]].
  - intros S. apply make_deepen; auto.
  - apply (make_deepen t R v P T I).
  - intros N. destruct t; try reflexivity. destruct (N I).
  - intros S B. apply make_variable; auto.
Qed.
Print Assumptions C104_making.

Example C104_making_ex :
  some (Opt (Opt Num)) (VOpt (Some (VOpt None))) = Some (VOpt (Some (VOpt None))) /\
  some (Opt Num) (VOpt (Some (VNum 3))) = Some (VOpt (Some (VOpt (Some (VNum 3))))) /\
  make (Opt Num) L (VOpt None) = Some (VOpt (Some (VOpt None))).
Proof. repeat split. Qed.

(* some() can create an empty optional, contrary to its documentation
   (optional.h:1143-1151), and make_optional of the same value has a value or not
   depending on whether it is const. *)
Theorem C104_some_never_empty_refuted :
  exists t v, typed t v /\ some t v = Some (VOpt None) /\ make t ConstL v = Some (VOpt None) /\
    make t L v = Some (VOpt (Some v)).
Proof. exists (Opt Num), (VOpt None). repeat split. Qed.
Print Assumptions C104_some_never_empty_refuted.

(* A variable any is not put into an optional but wrapped in another any. *)
Theorem C104_any_variable_refuted :
  exists v, typed Any v /\ make Any ConstL v = Some (VOpt (Some v)) /\
    make Any L v = Some (VOpt (Some (VAny (Some (Any, v))))).
Proof. exists (VAny (Some (Num, VNum 5))). repeat split. Qed.
Print Assumptions C104_any_variable_refuted.

(* flatten gives what is at the bottom if every level has a value; and it does not
   matter to it where a level was added. *)
Theorem C104_flatten : forall t v, typed (Opt t) v -> flatten t v = VOpt (core (Opt t) v).
Proof. exact flatten_is_core. Qed.
Print Assumptions C104_flatten.

Theorem C104_flatten_made : forall t c v r, plain t -> typed (Opt t) v -> settled c \/ base t = Num ->
  make (Opt t) c v = Some r -> flatten (Opt t) r = flatten t v.
Proof.
  intros t c v r P T H M.
  assert (D : settled c \/ ~ settled c) by (destruct c; cbn; tauto).
  destruct D as [D|D].
  - rewrite (make_deepen (Opt t) c v P T D) in M. injection M as <-.
    rewrite (flatten_is_core (Opt t)).
    + rewrite (flatten_is_core t v T). f_equal. exact (core_deepen (Opt t) v T).
    + pose proof (build_typed (Opt (Opt t)) (Opt t) c v P T) as B.
      rewrite (constructible_up _ _ (constructible_refl (Opt t))) in B. destruct B as (w & B & Tw).
      pose proof (make_deepen (Opt t) c v P T D) as M. unfold make in M. rewrite M in B. injection B as <-. exact Tw.
  - destruct H as [H|H]; [contradiction|].
    rewrite (make_variable (Opt t) c v P T D H) in M. injection M as <-. reflexivity.
Qed.
Print Assumptions C104_flatten_made.

Example C104_flatten_ex :
  flatten (Opt (Opt Num)) (VOpt (Some (VOpt (Some (VOpt (Some (VNum 4))))))) = VOpt (Some (VNum 4)) /\
  flatten (Opt Num) (VOpt (Some (VOpt None))) = VOpt None /\
  make (Opt Num) R (VOpt (Some (VNum 4))) = Some (VOpt (Some (VOpt (Some (VNum 4))))).
Proof. repeat split. Qed.

(* map with a function that returns no optional: a value iff there was one, namely
   that of the function; so mapping twice is mapping once, and mapping the identity
   changes nothing. *)
Theorem C104_map : forall t c f o, plain t -> ~ optional t -> settled c \/ base t = Num ->
  (forall x, o = Some x -> typed t (f x)) ->
  map t c f o = Some (VOpt (option_map f o)).
Proof.
  intros t c f o P N H T. destruct o as [x|]; [|reflexivity]. cbn [map option_map].
  specialize (T x eq_refl).
  assert (D : settled c \/ ~ settled c) by (destruct c; cbn; tauto).
  destruct D as [D|D].
  - rewrite make_deepen by auto. destruct t; try reflexivity. destruct (N I).
  - destruct H as [H|H]; [contradiction|]. apply make_variable; auto.
Qed.
Print Assumptions C104_map.

Theorem C104_map_laws : forall t s c d f g o, plain t -> plain s -> ~ optional t -> ~ optional s ->
  settled c -> settled d ->
  (forall x, o = Some x -> typed t (f x) /\ typed s (g (f x)) /\ typed s x) ->
  exists r, map t c f o = Some (VOpt r) /\ map s d g r = map s d (fun x => g (f x)) o /\
    map s d (fun x => x) o = Some (VOpt o).
Proof.
  intros t s c d f g o P Q N M C D T. exists (option_map f o). split; [|split].
  - apply C104_map; auto. intros x E. apply (T x E).
  - rewrite !C104_map; auto.
    + destruct o; reflexivity.
    + intros x E. apply (T x E).
    + intros x E. destruct o as [y|]; [|discriminate]. injection E as <-. apply (T y eq_refl).
  - rewrite C104_map; auto; [destruct o; reflexivity|]. intros x E. apply (T x E).
Qed.
Print Assumptions C104_map_laws.

Example C104_map_ex :
  map Num R (fun x => match x with VNum n => VNum (n + 1) | y => y end) (Some (VNum 3)) = Some (VOpt (Some (VNum 4))) /\
  map Flag R (fun x => match x with VNum n => VFlag (n =? 4) | y => y end) (Some (VNum 4)) = Some (VOpt (Some (VFlag true))).
Proof. split; reflexivity. Qed.

(* With a function that returns an optional, mapping once more need not see its
   result: the function that looks for an empty optional is never called. *)
Theorem C104_map_laws_refuted :
  exists f g o, let is_empty := g in
    (forall x, typed (Opt Num) (f x)) /\ (forall x, typed Flag (g x)) /\
    (exists r, map (Opt Num) R f o = Some (VOpt r) /\
      map Flag R is_empty r = Some (VOpt None) /\
      map Flag R (fun x => is_empty (f x)) o = Some (VOpt (Some (VFlag true)))).
Proof.
  exists (fun _ => VOpt None), (fun x => match x with VOpt None => VFlag true | _ => VFlag false end), (Some (VNum 0)).
  cbn zeta. split; [intros x; exact I|]. split.
  - intros [| | |[y|]|]; exact I.
  - exists None. repeat split.
Qed.
Print Assumptions C104_map_laws_refuted.

(* But mapping and then flattening gives what the function gives. *)
Theorem C104_map_flatten : forall t c f o r, plain t -> settled c \/ base t = Num ->
  (forall x, o = Some x -> typed (Opt t) (f x)) -> map (Opt t) c f o = Some r ->
  flatten (Opt t) r = match o with Some x => flatten t (f x) | None => VOpt None end.
Proof.
  intros t c f o r P H T M. destruct o as [x|]; cbn [map] in M.
  - exact (C104_flatten_made t c (f x) r P (T x eq_refl) H M).
  - injection M as <-. reflexivity.
Qed.
Print Assumptions C104_map_flatten.

Example C104_map_flatten_ex :
  map (Opt Num) R (fun x => VOpt (Some x)) (Some (VNum 7)) = Some (VOpt (Some (VOpt (Some (VNum 7))))) /\
  flatten (Opt Num) (VOpt (Some (VOpt (Some (VNum 7))))) = VOpt (Some (VNum 7)).
Proof. split; reflexivity. Qed.

(* filter keeps the value exactly if the predicate holds for it. *)
Theorem C104_filter : forall t c p o, plain t -> typed (Opt t) (VOpt o) -> settled c \/ base t = Num ->
  filter t c p o = Some (VOpt (match o with Some x => if p x then Some x else None | None => None end)).
Proof. exact filter_keeps. Qed.
Print Assumptions C104_filter.

Example C104_filter_ex :
  filter (Opt Num) L (fun _ => true) (Some (VOpt None)) = Some (VOpt (Some (VOpt None))) /\
  filter Num R (fun _ => false) (Some (VNum 1)) = Some (VOpt None).
Proof. split; reflexivity. Qed.

(* Filtering a variable optional<bool> for false gives true. *)
Theorem C104_filter_refuted :
  exists p x y, typed Flag x /\ p x = true /\ filter Flag L p (Some x) = Some (VOpt (Some y)) /\ p y = false.
Proof.
  exists (fun v => match v with VFlag false => true | _ => false end), (VFlag false), (VFlag true). repeat split.
Qed.
Print Assumptions C104_filter_refuted.

(* Assigning an optional of another type does what constructing from it does,
   whatever was there before; and it compiles unless bool or any is at the bottom. *)
Theorem C104_assignments : forall t u c old new, plain t -> plain u ->
  typed (Opt t) (VOpt old) -> typed (Opt u) (VOpt new) -> constructible t u = true ->
  (forall r, assign t u c old new = Some r ->
     build (Opt t) (Opt u) (match c with R => R | _ => ConstL end) (VOpt new) = Some r) /\
  (base t = Num -> exists r, assign t u c old new = Some r).
Proof.
  intros t u c old new P Q To Tn C. split.
  - intros r. exact (assign_builds t u c old new r P To Tn).
  - intros B. apply assign_compiles; auto.
Qed.
Print Assumptions C104_assignments.

Example C104_assignments_ex :
  assign (Opt Num) Flag L (Some (VOpt (Some (VNum 5)))) (Some (VFlag true)) = Some (VOpt (Some (VOpt (Some (VNum 1))))) /\
  assign (Opt Num) Num L (Some (VOpt (Some (VNum 5)))) None = Some (VOpt None).
Proof. split; reflexivity. Qed.

(* The condition under which operator= takes part does not ask whether the values
   can be assigned (optional.h:232-233): there are optionals one can be constructed
   from and not assigned from. *)
Theorem C104_assignments_compile_refuted :
  exists t u old new, constructible t u = true /\ typed (Opt t) (VOpt old) /\ typed (Opt u) (VOpt new) /\
    assign t u L old new = None.
Proof. exists Flag, (Opt Num), (Some (VFlag true)), (Some (VOpt None)). repeat split. Qed.
Print Assumptions C104_assignments_compile_refuted.

(* get_opt<T> of any and variant, and get_attribute_optional<T>, for T that is no
   optional: the value iff it is a T.  For T = any only if the any is const. *)
Theorem C104_get_opt : forall t u x, plain t -> ~ optional t -> typed u x ->
  (t <> u ->
     (forall b, any_get_opt t b (Some (u, x)) = Some (VOpt None)) /\
     (forall c, variant_get_opt t c u x = Some (VOpt None)) /\
     get_attribute_optional t (Some (Some (u, x))) = Some (VOpt None)) /\
  (t = u ->
     (forall b, b = true \/ t <> Any -> any_get_opt t b (Some (u, x)) = Some (VOpt (Some x))) /\
     (forall c, variant_get_opt t c u x = Some (VOpt (Some x))) /\
     get_attribute_optional t (Some (Some (u, x))) = Some (VOpt (Some x))) /\
  (forall b, any_get_opt t b None = Some (VOpt None)) /\
  get_attribute_optional t None = Some (VOpt None) /\ get_attribute_optional t (Some None) = Some (VOpt None).
Proof.
  intros t u x P N T. split; [|split; [|repeat split]].
  - intros E. unfold any_get_opt, variant_get_opt, get_attribute_optional.
    rewrite (same_neq u t) by congruence. auto.
  - intros <-. unfold any_get_opt, variant_get_opt, get_attribute_optional. rewrite same_refl.
    assert (D : forall c, settled c -> make t c x = Some (VOpt (Some x))).
    { intros c S. rewrite make_deepen by auto. destruct t; try reflexivity. destruct (N I). }
    split; [|split].
    + intros [|] H; [apply D; exact I|]. destruct H as [H|H]; [discriminate|].
      destruct t as [| | |t|t]; try contradiction; try (destruct (N I)); destruct x; cbn in T; try destruct T; reflexivity.
    + intros []; apply D; exact I.
    + apply D. exact I.
Qed.
Print Assumptions C104_get_opt.

Example C104_get_opt_ex :
  any_get_opt Num false (Some (Num, VNum 2)) = Some (VOpt (Some (VNum 2))) /\
  variant_get_opt Num R Flag (VFlag true) = Some (VOpt None).
Proof. split; reflexivity. Qed.

(* For T that is an optional, an empty one stored is told as if none were stored,
   but not by an any that is not const. *)
Theorem C104_get_opt_refuted :
  exists t x, typed t x /\
    variant_get_opt t ConstL t x = Some (VOpt None) /\
    get_attribute_optional t (Some (Some (t, x))) = Some (VOpt None) /\
    any_get_opt t true (Some (t, x)) = Some (VOpt None) /\
    any_get_opt t false (Some (t, x)) = Some (VOpt (Some x)).
Proof. exists (Opt Num), (VOpt None). repeat split. Qed.
Print Assumptions C104_get_opt_refuted.

(* std::optional: converting there and back changes nothing. *)
Theorem C104_std_round_trip : forall t c o, plain t -> typed (Opt t) (VOpt o) -> settled c \/ base t = Num ->
  typed (Std t) (to_std t o) /\ build (Opt t) (Std t) c (to_std t o) = Some (VOpt o).
Proof.
  intros t c o P T H. split; [|apply std_round; auto].
  destruct t; try exact T. destruct P.
Qed.
Print Assumptions C104_std_round_trip.

(* And from a std::optional of another type: a value iff there was one. *)
Theorem C104_from_std : forall t u c o, plain t -> constructible t u = true -> typed (Std u) (VStd o) ->
  settled c \/ constructible t (Std u) = false ->
  exists r, build (Opt t) (Std u) c (VStd o) = Some r /\
    follows (fun x w => build t u (match c with R => R | _ => ConstL end) x = Some w /\ typed t w) o r.
Proof. intros t u c o P C T H. exact (convert_std t u c o P T C H). Qed.
Print Assumptions C104_from_std.

Example C104_from_std_ex :
  build (Opt Num) (Std Flag) L (VStd (Some (VFlag true))) = Some (VOpt (Some (VNum 1))) /\
  to_std (Opt Num) (Some (VOpt None)) = VStd (Some (VOpt None)) /\
  build (Opt (Opt Num)) (Std (Opt Num)) R (VStd (Some (VOpt None))) = Some (VOpt (Some (VOpt None))).
Proof. repeat split. Qed.

(* An optional whose value is itself a std::optional is never empty after it was
   converted. *)
Theorem C104_to_std_refuted : forall t, exists v, to_std (Std t) None = VStd (Some v) /\ typed (Std t) v.
Proof. intros t. exists (VStd None). split; [reflexivity|exact I]. Qed.
Print Assumptions C104_to_std_refuted.
