(* C65, C66: containers, optionals and smart pointers as configs. *)
From Coq Require Import String Ascii List Bool Arith NArith ZArith Sorting.Sorted Lia.
From Verif Require Import ConvertModel ConvertSpec ConfigModel ConfigSpec ConfigProofs ConfigBuild ContModel ContSpec ContProofs.
Import ListNotations.
Local Open Scope nat_scope.

Section Reading.
Variables (exact : N -> option Z) (to_real : Z -> N) (real_to_string : N -> text) (real_of_string : text -> option N).
Notation load := (load exact to_real real_to_string real_of_string).
Notation entry_value := (entry_value exact to_real real_to_string real_of_string).
Notation cvt := (cvt exact to_real real_to_string real_of_string).
Notation to_vector := (to_vector exact to_real real_to_string real_of_string).
Notation to_map := (to_map exact to_real real_to_string real_of_string).
Notation to_multimap := (to_multimap exact to_real real_to_string real_of_string).

(* C65: a value of any type made from numbers, strings, configs, vectors, maps,
   optionals and pointers, with no empty optional directly inside another one, is
   written, and reading gives the value without its empty elements *)
Theorem C65_round_trip : forall t v, proper_ty t -> valid t v -> storable t v ->
  exists r, store t v = Val r /\ load t r = Val (pruned t v).
Proof.
  intros t v W V S. destruct (round_trip exact to_real real_to_string real_of_string t W v V S) as (r & E & L & _). eauto.
Qed.
(* ... the very value exactly if there are none of these *)
Theorem C65_exact : forall t v, proper_ty t -> valid t v -> storable t v ->
  exists r, store t v = Val r /\ (load t r = Val v <-> full t v).
Proof.
  intros t v W V S. destruct (C65_round_trip t v W V S) as (r & E & L). exists r. split; auto. rewrite L.
  rewrite full_pruned. split; [intros [= X]; auto|intros ->; auto].
Qed.
(* put into an object under a key: the key reads as the value, the others as
   before; an empty value changes nothing *)
Theorem C65_put : forall t v k es n, proper_ty t -> valid t v -> hollow t v \/ storable t v ->
  k = KMap \/ k = KOrdered -> keys_ok k (map fst es) ->
  exists es', put_value t (Conf k es) n v = Val (Conf k es') /\
    (present t v = true -> entry_value t (assoc n es') = Val (Some (pruned t v))) /\
    (present t v = false -> es' = es) /\
    forall m, m <> n -> assoc m es' = assoc m es.
Proof.
  intros t v k es n W V S K O. unfold put_value.
  destruct (skip t v) eqn:H.
  - apply skip_hollow in H. exists es. rewrite (hollow_absent _ _ H). repeat split; auto. discriminate.
  - destruct S as [S|S]; [apply skip_hollow in S; congruence|].
    destruct (round_trip exact to_real real_to_string real_of_string t W v V S) as (r & E & L & I).
    rewrite E. cbn [obind]. unfold builder_put. rewrite I. destruct (present t v); cbn [negb].
    + pose proof (entry_inject _ _ _ _ _ _ _ L) as X.
      destruct K as [-> | ->]; cbn [put lift].
      * exists (map_put n (Some (inject _ r)) es). split; auto. split; [|split; [discriminate|]].
        -- intros _. rewrite assoc_map_put, seqb_refl by auto. auto.
        -- intros m N. rewrite assoc_map_put by auto. destruct (seqb n m) eqn:Q; auto. apply seqb_spec in Q. congruence.
      * exists (ord_put n (Some (inject _ r)) es). split; auto. split; [|split; [discriminate|]].
        -- intros _. rewrite assoc_ord_put. destruct (list_eq_dec ascii_dec n n); [auto|congruence].
        -- intros m N. rewrite assoc_ord_put. destruct (list_eq_dec ascii_dec n m); auto. congruence.
    + exists es. repeat split; auto. discriminate.
Qed.
(* added to an array: one more element, which reads as the value; an empty value
   adds nothing *)
Theorem C65_add : forall t v es, proper_ty t -> valid t v -> hollow t v \/ storable t v ->
  exists es', add_value t (Conf KArray es) v = Val (Conf KArray (es ++ es')) /\
    (present t v = true -> exists s, es' = [([], s)] /\ entry_value t s = Val (Some (pruned t v))) /\
    (present t v = false -> es' = []).
Proof.
  intros t v es W V S. unfold add_value.
  destruct (skip t v) eqn:H.
  - apply skip_hollow in H. exists []. rewrite app_nil_r, (hollow_absent _ _ H). repeat split; auto. discriminate.
  - destruct S as [S|S]; [apply skip_hollow in S; congruence|].
    destruct (round_trip exact to_real real_to_string real_of_string t W v V S) as (r & E & L & I).
    rewrite E. cbn [obind]. unfold builder_add. rewrite I. destruct (present t v); cbn [negb].
    + exists [([], Some (inject _ r))]. split; auto. split; [|discriminate]. intros _. eexists. split; [reflexivity|]. apply entry_inject; auto.
    + exists []. rewrite app_nil_r. repeat split; auto. discriminate.
Qed.
(* config_builder::cvt followed by config::cvt *)
Theorem C65_cvt : forall t v, proper_ty t -> valid t v -> hollow t v \/ storable t v -> fetch_type t = TConfig ->
  exists c, builder_cvt t v = Val c /\
    cvt t c = Val (if present t v then Some (pruned t v) else None).
Proof.
  intros t v W V S T. unfold builder_cvt.
  destruct (skip t v) eqn:H.
  - apply skip_hollow in H. exists None. rewrite (hollow_absent _ _ H). auto.
  - destruct S as [S|S]; [apply skip_hollow in S; congruence|].
    destruct (round_trip exact to_real real_to_string real_of_string t W v V S) as (r & E & L & I).
    rewrite E. cbn [obind]. unfold ContModel.cvt. clear E. revert r L I. generalize (load t). rewrite T. intros ld r L I. cbn [inject raw] in *.
    exists r. split; auto. destruct r as [c|]; destruct (present t v); try discriminate; auto. rewrite L. auto.
Qed.

Local Opaque cast int_of_string bool_of_string int_to_string bool_to_string.
(* C66: an element of a basic type is read by the conversions of C36; where they give
   nothing, neither does the element, and there is no other outcome *)
Theorem C66_basic : forall v w, stored_as v w ->
  (forall b, entry_value TBool (Some v) = Val (Some b) <-> as_boolean w b) /\
  (forall x, entry_value TStr (Some v) = Val (Some x) <-> as_text real_to_string w x) /\
  (forall x, entry_value TDouble (Some v) = Val (Some x) <-> as_double to_real real_of_string v x) /\
  (forall s n x, entry_value (TInt s n) (Some v) = Val (Some x) <-> exists z, as_integer exact w z /\ x = cast (Int s n) z) /\
  (forall c, entry_value TConf (Some v) = Val (Some c) <-> v = VConf c).
Proof.
  intros v w W. destruct W; cbn; unfold ContModel.entry_value, entry_with, fetch; cbn; repeat split; intros.
  all: try (match goal with H : Val _ = Val _ |- _ => injection H; clear H; intros; subst end).
  all: try discriminate.
  all: try (match goal with H : as_boolean _ _ |- _ => inversion H; subst end).
  all: try (match goal with H : as_text _ _ _ |- _ => inversion H; subst end).
  all: try (match goal with H : as_double _ _ _ _ |- _ => inversion H; subst end).
  all: try (match goal with H : VConf _ = VConf _ |- _ => injection H as -> end).
  all: try (match goal with H : exists _, _ |- _ => destruct H as (y & Hy & ->); inversion Hy; subst end).
  all: cbn; try reflexivity; try (constructor; fail); try (eexists; split; [constructor|reflexivity]).
  all: try (match goal with |- context[Z.eqb ?z 0] => destruct (Z.eqb_spec z 0) as [->|]; cbn; constructor; auto end; fail).
  all: try (match goal with |- context[Z.eqb ?z 0] => destruct (Z.eqb_spec z 0); [contradiction|reflexivity] end; fail).
  all: repeat (match goal with H : context[match ?o with _ => _ end] |- _ => destruct o eqn:?; try discriminate end).
  all: try (match goal with H : Val _ = Val _ |- _ => injection H; clear H; intros; subst end).
  all: try (constructor; auto; fail).
  all: try (eexists; split; [constructor; eassumption|reflexivity]).
  all: try (match goal with H : _ = Some _ |- _ => rewrite H; reflexivity end).
  all: repeat (match goal with H : VInteger _ = VInteger _ |- _ => injection H; clear H; intros; subst | H : ConvertModel.VReal _ = ConvertModel.VReal _ |- _ => injection H; clear H; intros; subst
      | H : VBoolean _ = VBoolean _ |- _ => injection H; clear H; intros; subst | H : Some _ = Some _ |- _ => injection H; clear H; intros; subst end).
  all: try (constructor; auto; fail).
  all: try (eexists; split; [constructor; eassumption|reflexivity]).
  destruct b; eexists; split; constructor.
Qed.
Local Transparent cast int_of_string bool_of_string int_to_string bool_to_string.
(* C66: cvt gives what loading the config gives, and nothing instead of an error or for
   a null config *)
Theorem C66_cvt : forall t c,
  (fetch_type t <> TConfig -> cvt t c = Val None) /\
  cvt t None = Val None /\
  (forall c0 v, cvt (TVec t) (Some c0) = Val v <-> (match v with Some l => load (TVec t) (Some c0) = Val l | None => load (TVec t) (Some c0) = Error end)) /\
  (forall c0 v, cvt (TMap t) (Some c0) = Val v <-> (match v with Some l => load (TMap t) (Some c0) = Val l | None => load (TMap t) (Some c0) = Error end)).
Proof.
  intros t c. split; [|split; [reflexivity|split]].
  - intros N. unfold ContModel.cvt. destruct c; [|reflexivity]. generalize (load t).
    destruct (fetch_type t); try congruence; reflexivity.
  - intros c0 v. unfold ContModel.cvt. cbn [fetch_type].
    destruct (load_total exact to_real real_to_string real_of_string (TVec t) (Some c0)) as [[l E]|E]; rewrite E;
      destruct v; split; intros H; try discriminate; try (injection H as ->); auto.
  - intros c0 v. unfold ContModel.cvt. cbn [fetch_type].
    destruct (load_total exact to_real real_to_string real_of_string (TMap t) (Some c0)) as [[l E]|E]; rewrite E;
      destruct v; split; intros H; try discriminate; try (injection H as ->); auto.
Qed.
(* C66: reading a config as a container gives a value or a config_error, whatever
   the config *)
Theorem C66_no_other_failure : forall t r, (exists v, load t r = Val v) \/ load t r = Error.
Proof. exact (load_total exact to_real real_to_string real_of_string). Qed.
(* as a vector: all elements in order, each as read on its own *)
Theorem C66_vector : forall t c (l : list (den t)), load (TVec t) c = Val l <->
  length l = size c /\
  forall i, i < size c -> exists x, entry_value t (e_val (entry_at c i)) = Val (Some x) /\ nth_error l i = Some x.
Proof. exact (vector_spec exact to_real real_to_string real_of_string). Qed.
Theorem C66_vector_fails : forall t c, load (TVec t) c = Error <->
  exists i, i < size c /\ entry_value t (e_val (entry_at c i)) = Val None.
Proof.
  intros t c. rewrite load_vec. rewrite <- unreadable. destruct (readable _ _); split; auto; discriminate.
Qed.
(* as a map: the config must be an object; every key has the value of its first
   entry, as read on its own *)
Theorem C66_map : forall t c (m : list (str * den t)), load (TMap t) c = Val m ->
  assoc_b c = true /\ StronglySorted slt (map fst m) /\
  (forall n, In n (map fst m) <-> In n (keys c)) /\
  forall n x, first_of n m = Some x -> entry_value t (bassoc c n) = Val (Some x).
Proof.
  intros t c m. rewrite load_map. destruct (assoc_b c) eqn:A; [|discriminate].
  destruct (readable _ _) as [r|] eqn:R; [|discriminate]. intros [= <-].
  split; auto. apply (map_spec exact to_real real_to_string real_of_string t c r A R).
Qed.
Theorem C66_map_fails : forall t c, load (TMap t) c = Error <->
  assoc_b c = false \/ exists i, i < size c /\ entry_value t (e_val (entry_at c i)) = Val None.
Proof.
  intros t c. rewrite load_map. rewrite <- unreadable. destruct (assoc_b c); [|tauto].
  destruct (readable _ _); split; auto; try discriminate. intros [H|H]; discriminate.
Qed.
(* to_vector, to_map and to_multimap give the same, except that an element that
   cannot be read is reported as bad_optional_access *)
Theorem C66_to_vector : forall t c,
  (forall l, to_vector t c = Val l <-> load (TVec t) c = Val l) /\ (to_vector t c = BadAccess <-> load (TVec t) c = Error).
Proof.
  intros t c. rewrite to_vector_eq, load_vec. destruct (readable _ _); (split; [intros l0|]); split; intros H; auto; discriminate.
Qed.
Theorem C66_to_map : forall t c,
  (forall m, to_map t c = Val m <-> load (TMap t) c = Val m) /\
  (to_map t c = Error <-> assoc_b c = false) /\
  (to_map t c = BadAccess <-> assoc_b c = true /\ load (TMap t) c = Error).
Proof.
  intros t c. rewrite to_map_eq, load_map. destruct (assoc_b c); [destruct (readable _ _)|]; repeat split; auto; try discriminate; try (intros [? ?]; discriminate).
Qed.
(* to_multimap keeps all values of a key, in order *)
Theorem C66_to_multimap : forall t c m, to_multimap t c = Val m ->
  assoc_b c = true /\ StronglySorted sle (map fst m) /\ length m = size c /\
  forall n, Forall2 (fun s x => entry_value t s = Val (Some x)) (all_of n (match c with Some c => centries c | None => [] end)) (all_of n m).
Proof.
  intros t c m. rewrite to_multimap_eq. destruct (assoc_b c) eqn:A; [|discriminate].
  destruct (readable _ _) as [r|] eqn:R; [|discriminate]. intros [= <-].
  split; auto. apply (multimap_spec exact to_real real_to_string real_of_string t c r R).
Qed.
End Reading.

(* no conversion of doubles succeeds, for the examples *)
Definition load0 := load (fun _ => None) (fun _ => 0%N) (fun _ => []) (fun _ => None).
Definition int32 := TInt true 32.
Definition s (x : string) : str := chars x.

(* std::map<std::string, std::vector<std::optional<int>>> *)
Definition ex_ty := TMap (TVec (TWrap StdOptional int32)).
Definition ex_v : den ex_ty := [(s "a", [Some 1%Z; None; Some (-2)%Z]); (s "b", [])].
Example C65_ex : proper_ty ex_ty /\ valid ex_ty ex_v /\ storable ex_ty ex_v /\
  pruned ex_ty ex_v = [(s "a", [Some 1%Z; Some (-2)%Z]); (s "b", [])] /\
  obind (store ex_ty ex_v) (load0 ex_ty) = Val (pruned ex_ty ex_v).
Proof.
  split; [cbn; lia|]. split.
  { split; [repeat constructor; cbn; lia|]. unfold ex_v. 
    repeat (apply Forall_cons || apply Forall_nil || (cbn [valid snd]; progress intros x X; try discriminate; injection X as <-; cbn; lia)). }
  split; [|split; vm_compute; auto].
  unfold ex_v. repeat (apply Forall_cons || apply Forall_nil || (right; cbn; exact I) || (left; reflexivity) || right).
Qed.
(* so the elements after an empty one move *)
Theorem C65_position_refuted : exists t (l : den (TVec t)) r l',
  store (TVec t) l = Val r /\ load0 (TVec t) r = Val l' /\ nth_error l 1 <> nth_error l' 1 /\ length l' < length l.
Proof.
  exists (TWrap StdOptional int32), [Some 1%Z; None; Some 2%Z],
    (Some (Conf KArray [([], Some (VInt 1)); ([], Some (VInt 2))])), [Some 1%Z; Some 2%Z].
  split; [vm_compute; reflexivity|]. split; [vm_compute; reflexivity|]. split; [discriminate|cbn; lia].
Qed.
(* and an empty optional inside an optional cannot be written: it throws, a null
   pointer inside a pointer is dereferenced *)
Theorem C65_nested_refuted : forall t w,
  store (TWrap w (TWrap StdOptional t)) (Some None) = BadAccess /\
  store (TWrap w (TWrap YatoOptional t)) (Some None) = BadAccess /\
  store (TWrap w (TWrap UniquePtr t)) (Some None) = Undefined /\
  store (TWrap w (TWrap SharedPtr t)) (Some None) = Undefined.
Proof. intros t w. repeat split. Qed.
(* an optional element does not become empty because it cannot be read: the
   whole vector fails *)
Theorem C66_optional_element_refuted : exists c,
  load0 (TVec (TWrap StdOptional int32)) c = Error /\ size c = 2.
Proof. exists (Some (Conf KArray [([], Some (VInt 1)); ([], Some (VStr (s "x")))])). split; vm_compute; reflexivity. Qed.
(* an object read as a vector, and a repeated key read as a map *)
Definition ex_multi : option conf :=
  Some (Conf KMulti [(s "a", Some (VInt 1)); (s "a", Some (VStr (s "2"))); (s "b", Some (VBool true))]).
Example C66_basic_ex : entry_value (fun _ => None) (fun _ => 0%N) (fun _ => []) (fun _ => None) TBool (Some (VStr (s "yes"))) = Val (Some true) /\
  entry_value (fun _ => None) (fun _ => 0%N) (fun _ => []) (fun _ => None) TBool (Some (VStr (s "maybe"))) = Val None /\
  entry_value (fun _ => None) (fun _ => 0%N) (fun _ => []) (fun _ => None) (TInt false 8) (Some (VInt 258)) = Val (Some 2%Z) /\
  cvt (fun _ => None) (fun _ => 0%N) (fun _ => []) (fun _ => None) (TVec TBool) (Some (Conf KArray [([], Some (VStr (s "maybe")))])) = Val None.
Proof. repeat split; vm_compute; reflexivity. Qed.
Example C66_ex : load0 (TVec int32) ex_multi = Val [1; 2; 1]%Z /\ load0 (TMap int32) ex_multi = Val [(s "a", 1); (s "b", 1)]%Z /\
  to_multimap (fun _ => None) (fun _ => 0%N) (fun _ => []) (fun _ => None) int32 ex_multi = Val [(s "a", 1); (s "a", 2); (s "b", 1)]%Z /\
  load0 (TMap int32) (Some (Conf KArray [])) = Error.
Proof. repeat split; vm_compute; reflexivity. Qed.
Example C65_put_ex : exists es', put_value (TWrap UniquePtr TStr) (Conf KOrdered [(s "z", Some (VInt 1))]) (s "a") (Some (s "x")) = Val (Conf KOrdered es') /\
  map fst es' = [s "z"; s "a"].
Proof. eexists; split; reflexivity. Qed.
Example C65_cvt_ex : fetch_type (TWrap SharedPtr (TVec TBool)) = TConfig /\
  builder_cvt (TWrap SharedPtr (TVec TBool)) (Some [true; false]) = Val (Some (Conf KArray [([], Some (VBool true)); ([], Some (VBool false))])).
Proof. split; reflexivity. Qed.

Print Assumptions C65_round_trip.
Print Assumptions C65_exact.
Print Assumptions C65_put.
Print Assumptions C65_add.
Print Assumptions C65_cvt.
Print Assumptions C65_position_refuted.
Print Assumptions C65_nested_refuted.
Print Assumptions C66_basic.
Print Assumptions C66_cvt.
Print Assumptions C66_no_other_failure.
Print Assumptions C66_vector.
Print Assumptions C66_vector_fails.
Print Assumptions C66_map.
Print Assumptions C66_map_fails.
Print Assumptions C66_to_vector.
Print Assumptions C66_to_map.
Print Assumptions C66_to_multimap.
Print Assumptions C66_optional_element_refuted.
