(* The properties of any_ptr, not_null, instance_of and compressed_pair. *)
From Coq Require Import List Bool Arith Lia.
From Verif Require Import HoldModel HoldSpec HoldProofs.
Import ListNotations.

(* After every history an any_ptr gives the pointer it was given last, under
   exactly the type it was given under; asked for any other type it gives the
   default. *)
Theorem C87_any_ptr (l : list aop) (i : nat) (t : ptype) (p : nat) :
  given (rev l) i = Some (t, p) ->
  exists a, a_run l no_vars i = Some a /\
    any_get t a = p /\ (forall d, any_get_or t d a = p) /\
    (forall u d, u <> t -> any_get_or u d a = d /\ any_get u a = 0) /\
    (any_bool a = true <-> p <> 0).
Proof.
  intro G. exists (mk_any p t). rewrite a_run_given, G. split; [reflexivity|].
  unfold any_get, any_get_or, any_bool. cbn [m_type m_pointer].
  assert (E : ptype_eqb t t = true) by (apply ptype_eqb_iff; reflexivity).
  rewrite E. split; [reflexivity|]. split; [reflexivity|]. split.
  - intros u d N. destruct (ptype_eqb u t) eqn:F; [apply ptype_eqb_iff in F; contradiction|]. auto.
  - destruct p; cbn; split; congruence || lia.
Qed.
Print Assumptions C87_any_ptr.

Example C87_any_ptr_example :
  let l := [AGive 0 false false 3 50; AGive 1 true false 3 60; ACopy 2 0; ANull 0; ACopy 1 0] in
  given (rev l) 2 = Some (PtrTo false false 3, 50) /\ given (rev l) 1 = Some (NullT, 0) /\
  option_map (any_get (PtrTo false false 3)) (a_run l no_vars 2) = Some 50 /\
  option_map (any_get (PtrTo true false 3)) (a_run l no_vars 2) = Some 0.
Proof. repeat split. Qed.

(* Being more const than the pointer it was given is already another type. *)
Theorem C87_any_ptr_to_const_refuted :
  exists b p, p <> 0 /\ any_get (PtrTo true false b) (any_of (PtrTo false false b) p) <> p.
Proof. exists 3, 50. split; [discriminate|]. vm_compute. discriminate. Qed.
Print Assumptions C87_any_ptr_to_const_refuted.

(* not_null of raw pointers gives the pointer it was made from or assigned.  A
   debug build stops exactly when a null pointer is passed, so that no not_null
   is ever null there; a release build never stops. *)
Theorem C87_not_null (debug : bool) (l : list nop) :
  (n_run debug l no_vars = None <-> debug = true /\ existsb nulls l = true) /\
  forall s, n_run debug l no_vars = Some s ->
    (forall i, s i = n_given (rev l) i) /\ (debug = true -> forall i p, s i = Some p -> p <> 0).
Proof.
  split; [apply n_run_stops|]. intros s E. split; [apply (n_run_given _ _ _ E)|].
  intros -> i p. apply debug_not_null with (l := l). exact E.
Qed.
Print Assumptions C87_not_null.

Example C87_not_null_example :
  let l := [NMake 0 7; NMake 1 8; NCopy 1 0] in
  (exists s, n_run true l no_vars = Some s /\ s 1 = Some 7) /\ n_run true (l ++ [NMake 2 0]) no_vars = None.
Proof. split; [eexists; split; [reflexivity|reflexivity]|reflexivity]. Qed.

(* In a release build nothing is checked. *)
Theorem C87_not_null_release_refuted :
  exists l s i, n_run false l no_vars = Some s /\ s i = Some 0.
Proof. exists [NMake 0 0]. eexists. exists 0. split; reflexivity. Qed.
Print Assumptions C87_not_null_release_refuted.

(* not_null of a smart pointer refers to it: it gives what that smart pointer
   holds now, and using it after the smart pointer is gone is undefined. *)
Theorem C87_not_null_smart (debug : bool) (l : list sop) (s : smart) (k i : nat) :
  s_run debug l (mk_smart no_vars no_vars) = Some s -> wraps (rev l) k = Some i ->
  s_get s k = holds (rev l) i.
Proof.
  intros E W. destruct (s_run_holds _ _ _ E) as (H & N). unfold s_get. rewrite N, W. apply H.
Qed.
Print Assumptions C87_not_null_smart.

Example C87_not_null_smart_example :
  let l := [SSet 0 7; SSet 1 8; SWrap 5 1; SWrap 6 0; SSet 1 9; SGone 0] in
  exists s, s_run true l (mk_smart no_vars no_vars) = Some s /\ wraps (rev l) 5 = Some 1 /\ s_get s 5 = Some 9 /\ s_get s 6 = None.
Proof. eexists. split; [reflexivity|]. repeat split. Qed.

(* So it can be null even in a debug build. *)
Theorem C87_not_null_smart_refuted :
  exists l s k, s_run true l (mk_smart no_vars no_vars) = Some s /\ s_get s k = Some 0.
Proof. exists [SSet 0 7; SWrap 1 0; SSet 0 0]. eexists. exists 1. split; reflexivity. Qed.
Print Assumptions C87_not_null_smart_refuted.

(* Every instance_of that exists, in any build, points to an object: the result
   of the cast of a pointer the program passed. *)
Theorem C87_instance_of (cast : nat -> nat) (l : list iop) (s : vars nat) :
  i_run cast l no_vars = Some s ->
  forall i q, s i = Some q -> q <> 0 /\ exists k p, In (IMake k p) l /\ cast p = q.
Proof. exact (i_run_cast cast l s). Qed.
Print Assumptions C87_instance_of.

(* It is created exactly for the objects that are instances of the type. *)
Theorem C87_instance_of_made (cast : nat -> nat) (s : vars nat) (i p : nat) :
  exists s', i_step cast (IMake i p) s = Some s' /\
    (cast p <> 0 -> s' i = Some (cast p)) /\ (cast p = 0 -> forall k, s' k = s k) /\ (forall k, k <> i -> s' k = s k).
Proof.
  cbn [i_step]. unfold io_make. destruct (Nat.eqb_spec (cast p) 0) as [Z|Z]; eexists; (split; [reflexivity|]).
  - split; [contradiction|]. split; reflexivity.
  - rewrite set_at, Nat.eqb_refl. split; [reflexivity|]. split; [contradiction|].
    intros k N. rewrite set_at. apply Nat.eqb_neq in N. rewrite N. reflexivity.
Qed.
Print Assumptions C87_instance_of_made.

Example C87_instance_of_example :
  let cast p := if 5 <? p then p + 1 else 0 in
  let l := [IMake 0 9; IMake 1 3; IMake 2 7; ICopy 1 2 ConstLvalue; IAssign 2 0] in
  exists s, i_run cast l no_vars = Some s /\ s 0 = Some 10 /\ s 1 = Some 8 /\ s 2 = Some 10.
Proof. eexists. split; [reflexivity|]. repeat split. Qed.

(* A variable of type instance_of that is not const cannot be copied: the
   program does not compile. *)
Theorem C87_instance_of_copy_refuted :
  exists (cast : nat -> nat) l s, i_run cast l no_vars = Some s /\ s 0 = Some 9 /\ i_step cast (ICopy 1 0 Lvalue) s = None.
Proof. exists (fun p => p), [IMake 0 9]. eexists. split; [reflexivity|]. split; reflexivity. Qed.
Print Assumptions C87_instance_of_copy_refuted.

(* A compressed_pair, compressed or not, is a pair of values: after its
   construction and any assignments through first(), second(), get<I> or by
   type it holds what a plain pair would hold.  The exception is `p;` of the
   version that is not compressed, with members that have no initial value. *)
Theorem C88_values (t1 t2 : mtype) (c : ctor) (l : list (access * nat)) (x y : nat) :
  has_values t1 t2 c -> written t1 t2 l (expect_ctor t1 t2 c) (x, y) ->
  let p := writes t1 t2 l (build t1 t2 c) in
  to_tuple p = Some (x, y) /\ read_member true p = Some x /\ read_member false p = Some y.
Proof.
  intros H W. cbn zeta. rewrite (build_values _ _ _ H), (writes_values _ _ _ _ _ W). repeat split.
Qed.
Print Assumptions C88_values.

Example C88_values_example :
  let e := mk_type 1 true false true 0 in let i := mk_type 2 false false true 0 in let s := mk_type 3 false false false 4 in
  has_values e i CDefault /\ compressed e = true /\
  written e i [(ByType 2, 6); (Index false 0, 9); (Second, 7)] (expect_ctor e i CDefault) (0, 7) /\
  has_values i s (COne 5 None) /\ compressed i = false /\
  written i s [(ByType 2, 6); (Index false 0, 9)] (expect_ctor i s (COne 5 None)) (9, 4).
Proof.
  cbn. split; [left; reflexivity|]. split; [reflexivity|]. split.
  - apply written_second; [right; right; split; [reflexivity|discriminate]|].
    apply written_first; [right; left; reflexivity|]. apply written_second; [left; reflexivity|]. constructor.
  - split; [exact I|]. split; [reflexivity|].
    apply written_first; [right; right; split; [reflexivity|discriminate]|].
    apply written_first; [right; left; reflexivity|]. constructor.
Qed.

(* Which accesses compile, and which member they mean: by index for lvalues, by
   type only when the two types differ. *)
Theorem C88_access (t1 t2 : mtype) (a : access) :
  (member t1 t2 a = Some true <-> names_first t1 t2 a) /\ (member t1 t2 a = Some false <-> names_second t1 t2 a).
Proof. split; [apply member_first|apply member_second]. Qed.
Print Assumptions C88_access.

Example C88_access_example :
  let e := mk_type 1 true false true 0 in let i := mk_type 2 false false true 0 in
  names_first e i (ByType 1) /\ names_second e i (ByType 2) /\ member i i (ByType 2) = None.
Proof. cbn. split; [right; right; split; [reflexivity|discriminate]|]. split; [right; right; split; [reflexivity|discriminate]|reflexivity]. Qed.

(* The two versions can be told apart: `compressed_pair<E, int> p;` has second
   0 for an empty class E, and an indeterminate one if E is final. *)
Theorem C88_same_default_refuted :
  exists t1 t1' t2, is_empty t1 = true /\ is_empty t1' = true /\
    to_tuple (build t1 t2 CDefault) = Some (0, 0) /\ to_tuple (build t1' t2 CDefault) = None.
Proof.
  exists (mk_type 1 true false true 0), (mk_type 1 true true true 0), (mk_type 2 false false true 0). repeat split.
Qed.
Print Assumptions C88_same_default_refuted.

(* get<0> and get<1> of an rvalue do not compile. *)
Theorem C88_rvalue_refuted : exists t1 t2, forall i, member t1 t2 (Index true i) = None.
Proof. exists (mk_type 1 true false true 0), (mk_type 2 false false true 0). reflexivity. Qed.
Print Assumptions C88_rvalue_refuted.
