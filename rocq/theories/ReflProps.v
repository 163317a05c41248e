(* C75: reflection of class members. *)
From Coq Require Import List Bool Arith Sorted Lia.
From Verif Require Import ReflModel ReflSpec ReflProofs.
Import ListNotations.

(* a class with up to 255 reflected members compiles, unless a member is reflected twice *)
Theorem C75_compiles : forall ds, (exists c, compile ds = Some c) <->
  length ds <= 255 /\ NoDup (vars ds) /\ NoDup (method_names ds).
Proof.
  intros ds. destruct (compile_inv ds) as [A B]. split; [|exact A]. intros [c E]. exact (proj1 (B c E)).
Qed.
(* the list of data members is complete and in order of declaration *)
Theorem C75_data_members : forall ds c, compile ds = Some c -> data_members_list c = data_of ds.
Proof. intros ds c E. destruct (compile_inv ds) as [_ B]. destruct (B c E) as [L I]. exact (proj1 (lists_of _ _ I (proj1 L))). Qed.
(* the manager knows every data member by its name, and nothing else, whatever the
   order of queries; its list is ordered by name *)
Theorem C75_queries : forall ds c qs, compile ds = Some c -> Forall no_memory_limit qs ->
  Forall2 (answered false ds) qs (ask_all c qs manager0).
Proof.
  intros ds c qs E N. destruct (compile_inv ds) as [_ B]. destruct (B c E) as [L I]. apply ask_free; auto.
Qed.
(* when memory runs out at any time, a query throws or its answer is right *)
Theorem C75_any_memory : forall ds c qs, compile ds = Some c -> Forall2 (answered true ds) qs (ask_all c qs manager0).
Proof.
  intros ds c qs E. destruct (compile_inv ds) as [_ B]. destruct (B c E) as [L I]. apply ask_any; auto. right. exists 0. reflexivity.
Qed.
(* a data member is public exactly if it was reflected in a public part *)
Theorem C75_public : forall ds c i n t p, compile ds = Some c -> nth_error ds i = Some (Var n t p) -> is_public c (S i) = p.
Proof.
  intros ds c i n t p E N. destruct (compile_inv ds) as [_ B]. destruct (B c E) as [L I]. rewrite (c_tags _ _ I).
  replace (S i - 1) with i by lia. rewrite N. reflexivity.
Qed.
(* through as_ptr one reads the member itself *)
Theorem C75_pointer : forall (o : object) n t k v, o n = Some (t, v) -> read (as_ptr t (DataInfo n t k)) o = Some v.
Proof. intros o n t k v O. unfold read, as_ptr. cbn. rewrite O, Nat.eqb_refl. reflexivity. Qed.
(* the list of member functions: the data members declared before the last method, and
   that method *)
Theorem C75_member_functions : forall a n t b c, compile (a ++ Method n t :: b) = Some c -> method_names b = [] ->
  member_functions_list c = data_of a ++ [FuncInfo n t (S (length a))].
Proof.
  intros a n t b c E N. destruct (compile_inv (a ++ Method n t :: b)) as [_ B]. destruct (B c E) as [L I].
  rewrite (proj2 (lists_of _ _ I (proj1 L))). apply funcs_last. exact N.
Qed.
Print Assumptions C75_compiles.
Print Assumptions C75_data_members.
Print Assumptions C75_queries.
Print Assumptions C75_any_memory.
Print Assumptions C75_public.
Print Assumptions C75_pointer.
Print Assumptions C75_member_functions.

Definition shape : list decl := [Var 9 1 true; Method 20 7; Var 4 2 false; Method 21 7; Var 6 1 true].
Example C75_ex : match compile shape with
  | Some c => data_members_list c = [DataInfo 9 1 1; DataInfo 4 2 3; DataInfo 6 1 5] /\
      ask_all c [GetByName 4 None; Members None; GetByName 5 None] manager0 =
        [AInfo (Returned (Some (DataInfo 4 2 3))); AList (Returned [DataInfo 4 2 3; DataInfo 6 1 5; DataInfo 9 1 1]); AInfo (Returned None)] /\
      map (is_public c) [1; 3; 5] = [true; false; true]
  | None => False end.
Proof. vm_compute. repeat split. Qed.
Example C75_limit_ex : length (data_of (map (fun n => Var n 0 true) (seq 0 255))) = 255 /\
  match compile (map (fun n => Var n 0 true) (seq 0 255)) with Some c => length (data_members_list c) = 255 | None => False end /\
  compile (map (fun n => Var n 0 true) (seq 0 256)) = None.
Proof. vm_compute. repeat split. Qed.
(* one would expect the list of member functions to be the reflected methods: it starts
   from the list of data members and keeps the last method only *)
Theorem C75_functions_refuted : exists ds c, compile ds = Some c /\ length (methods_of ds) = 2 /\
  member_functions_list c = [DataInfo 9 1 1; DataInfo 4 2 3; FuncInfo 21 7 4].
Proof.
  exists shape. eexists. split; [vm_compute; reflexivity|]. split; reflexivity.
Qed.
(* methods never count as public *)
Theorem C75_method_public : forall ds c i n t, compile ds = Some c -> nth_error ds i = Some (Method n t) -> is_public c (S i) = false.
Proof.
  intros ds c i n t E N. destruct (compile_inv ds) as [_ B]. destruct (B c E) as [L I]. rewrite (c_tags _ _ I).
  replace (S i - 1) with i by lia. rewrite N. reflexivity.
Qed.
(* when memory runs out half way through the first query, all later ones throw *)
Theorem C75_memory_refuted : exists ds c, compile ds = Some c /\
  ask_all c [Members (Some 1); Members None; GetByName 4 None] manager0 = [AList Threw; AList Threw; AInfo Threw].
Proof. exists shape. eexists. split; [vm_compute; reflexivity|]. vm_compute. reflexivity. Qed.
(* as_ptr does not look at the type it is asked for *)
Theorem C75_wrong_type_refuted : exists (i : info) (o : object), o (info_name i) = Some (1, 5) /\ as_ptr 2 i = (info_name i, 2) /\ read (as_ptr 2 i) o = None.
Proof. exists (DataInfo 9 1 1), (fun _ => Some (1, 5)). repeat split. Qed.
Print Assumptions C75_functions_refuted.
Print Assumptions C75_method_public.
Print Assumptions C75_memory_refuted.
Print Assumptions C75_wrong_type_refuted.
