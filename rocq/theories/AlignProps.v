(* C18: aligning_allocator. *)
From Coq Require Import ZArith List Bool Lia.
From Verif Require Import AlignModel AlignSpec AlignProofs.
Import ListNotations.
Local Open Scope Z_scope.

(* Allocating, writing into an array one has and giving an array back are never
   undefined: whatever operator new[] returned, the offset record is inside the
   block, and delete[] gets the address of a live block. *)
Theorem C18_every_step_works : forall A size h arrays e,
  1 <= A < 2 ^ 62 -> 1 <= size -> history A size h arrays -> may A size h arrays e ->
  exists r h', exec A size h e = Some (r, h').
Proof. intros A size h arrays e HA HS. apply history_step; assumption. Qed.
Print Assumptions C18_every_step_works.

(* Every array is aligned, inside its block and apart from the others, and the
   live blocks are exactly those of the arrays still in use. *)
Theorem C18_placed : forall A size h arrays,
  1 <= A < 2 ^ 62 -> 1 <= size -> history A size h arrays -> well_placed A size h arrays.
Proof.
  intros A size h arrays HA HS H. apply inv_placed; [exact HA|exact HS|]. apply history_inv; assumption.
Qed.
Print Assumptions C18_placed.

(* Giving back the array at p frees the block it was cut from and no other, and
   when nothing is in use no block is left. *)
Theorem C18_frees_its_block : forall A size h arrays p r h',
  1 <= A < 2 ^ 62 -> 1 <= size -> history A size h arrays ->
  (exists x, In x arrays /\ ptr x = p) -> exec A size h (Deallocate p) = Some (r, h') ->
  exists l1 x l2, arrays = l1 ++ x :: l2 /\ ptr x = p /\
    blocks_of h = map base l1 ++ base x :: map base l2 /\
    blocks_of h' = map base l1 ++ map base l2.
Proof.
  intros A size h arrays p r h' HA HS H I E.
  pose proof (C18_placed A size h arrays HA HS H) as W.
  assert (H' : history A size h' (drop_ptr p arrays)) by (apply (Step A size h arrays (Deallocate p) r h' H I E)).
  pose proof (C18_placed A size h' _ HA HS H') as W'.
  rewrite <- (accounted _ _ _ _ W), <- (accounted _ _ _ _ W'). clear - I.
  induction arrays as [|y l IH]; [destruct I as (x & [] & _)|]. cbn [drop_ptr].
  destruct (Z.eqb_spec (ptr y) p) as [D|D].
  - exists [], y, l. repeat split. exact D.
  - destruct I as (x & [I|I] & Ex); [congruence|]. destruct IH as (l1 & z & l2 & E1 & E2 & E3 & E4).
    { exists x. split; assumption. }
    exists (y :: l1), z, l2. cbn [map app]. rewrite E3, E4, E1. repeat split. exact E2.
Qed.
Print Assumptions C18_frees_its_block.

Theorem C18_nothing_leaks : forall A size h,
  1 <= A < 2 ^ 62 -> 1 <= size -> history A size h [] -> blocks h = [].
Proof.
  intros A size h HA HS H. pose proof (accounted _ _ _ _ (C18_placed A size h [] HA HS H)) as W.
  unfold blocks_of in W. destruct (blocks h); [reflexivity|discriminate W].
Qed.
Print Assumptions C18_nothing_leaks.

(* The record of the offset lies between the start of the block and the array,
   is aligned for its type, and holds the whole offset. *)
Theorem C18_offset_record : forall A size h arrays x,
  1 <= A < 2 ^ 62 -> 1 <= size -> history A size h arrays -> natural A = false -> In x arrays ->
  base x <= offset_ptr A (ptr x) /\ offset_ptr A (ptr x) + offset_size A <= ptr x /\
  offset_ptr A (ptr x) mod offset_size A = 0 /\
  0 <= ptr x - base x < 2 ^ (8 * offset_size A) /\
  load (Z.to_nat (offset_size A)) (offset_ptr A (ptr x)) (mem h) = ptr x - base x.
Proof.
  intros A size h arrays x HA HS H N I. pose proof (history_inv A size HA HS _ _ H) as [F _ _].
  apply In_nth_error in I. destruct I as (i & I).
  destruct (Forall2_nth _ _ _ _ _ F i x I) as ((b & len) & _ & L).
  destruct L as [H1 H2 H3 H4 H5 H6 H7 H8 H9]. cbn [fst snd] in *. rewrite N in H8. rewrite H2 in H6.
  destruct (placement A size (count x) b HA HS H3 N H4 H5 H6) as [Q1 Q2 Q3 Q4 Q5 Q6].
  rewrite <- H8 in *. rewrite H1. pose proof (extra_fits A HA). repeat split; try assumption; try lia. apply H9, N.
Qed.
Print Assumptions C18_offset_record.

(* Allocating and giving back leave the contents of the other arrays alone. *)
Theorem C18_contents_kept : forall A size h arrays e r h' x a,
  1 <= A < 2 ^ 62 -> 1 <= size -> history A size h arrays -> may A size h arrays e ->
  exec A size h e = Some (r, h') -> In x arrays -> inside size x a ->
  match e with Write a' v => mem h' a = (if a =? a' then v else mem h a) | _ => mem h' a = mem h a end.
Proof.
  intros A size h arrays e r h' x a HA HS H M E I Ia. pose proof (history_inv A size HA HS _ _ H) as V.
  destruct e as [n b|a' v|p]; cbn [may exec] in *.
  - destruct M as (M1 & M2 & M3).
    destruct (allocate_ok A size HA HS h arrays n b V M1 M2 M3) as (p & h'' & Ea & _ & _ & K).
    rewrite Ea in E. cbn [option_map fst snd] in E. injection E as E1 E2. subst. apply (K x); assumption.
  - injection E as E1 E2. subst. reflexivity.
  - destruct (deallocate_ok A size HA HS h arrays p V M) as (h'' & Ed & _ & K).
    rewrite Ed in E. cbn [option_map] in E. injection E as E1 E2. subst. rewrite K. reflexivity.
Qed.
Print Assumptions C18_contents_kept.

(* The type chosen for the offset holds the largest offset, and no smaller
   unsigned type would hold the largest offset it would itself lead to. *)
Theorem C18_offset_type : forall A, 1 <= A < 2 ^ 62 ->
  In (offset_size A) [1; 2; 4; 8] /\
  A - 1 + 2 * offset_size A - 1 <= 2 ^ (8 * offset_size A) - 1 /\
  forall s, In s [1; 2; 4; 8] -> s < offset_size A -> 2 ^ (8 * s) - 1 < A - 1 + 2 * s - 1.
Proof.
  intros A HA. split; [|split].
  - cbn [In]. pose proof (offset_size_cases A). lia.
  - pose proof (extra_fits A HA) as X. unfold extra_bytes in X. rewrite extra_length_eq in X; [lia|exact HA|].
    pose proof (offset_size_cases A). lia.
  - intros s I L. pose proof (offset_smallest A s I L) as X. rewrite extra_length_eq in X; [lia|exact HA|].
    cbn [In] in I. lia.
Qed.
Print Assumptions C18_offset_type.

(* With no bound on the count, n * sizeof(Ty_) wraps: allocate succeeds and
   the array does not fit into the block. *)
Theorem C18_overflow_refuted : exists A size n b h p h',
  1 <= A < 2 ^ 62 /\ 1 <= size /\ 1 <= n /\ new_gives (blocks h) b (request A size n) /\
  allocate A size n b h = Some (p, h') /\
  ~ (p + n * size <= b + request A size n).
Proof.
  exists 32, 8, (2 ^ 61), 64, (MkHeap (fun _ => 0) []), 96.
  eexists. split; [lia|]. split; [lia|]. split; [lia|].
  split; [split; [lia|]; split; [vm_compute; reflexivity|]; split; [reflexivity|]; intros b' len' []|].
  split; [vm_compute; reflexivity|]. vm_compute. intro H. apply H. reflexivity.
Qed.
Print Assumptions C18_overflow_refuted.

(* the same for every count whose product wraps *)
Theorem C18_overflow_never_fits : forall A size n b h p h',
  1 <= A < 2 ^ 62 -> 0 < b -> natural A = false -> 2 ^ 64 <= n * size ->
  b + request A size n < 2 ^ 64 ->
  allocate A size n b h = Some (p, h') -> b + request A size n < p + n * size.
Proof.
  intros A size n b h p h' HA Hb N O F E. unfold allocate in E. rewrite N in E.
  destruct (_ && _) eqn:G; [|discriminate]. injection E as E _.
  assert (0 <= p); [|lia]. rewrite <- E. unfold ceil_address.
  apply Z.mul_nonneg_nonneg; [|lia]. apply Z.div_pos; [|lia]. apply Z.mod_pos_bound. lia.
Qed.
Print Assumptions C18_overflow_never_fits.

(* Two arrays of alignment 48 (not a power of two), the second one written to,
   the first given back. *)
Definition h0 : heap := MkHeap (fun _ => 0) [].
Definition h1 : heap := match exec 48 4 h0 (Allocate 3 160) with Some (_, h) => h | None => h0 end.
Definition h2 : heap := match exec 48 4 h1 (Allocate 2 1600) with Some (_, h) => h | None => h0 end.

Example C18_first : exists h, exec 48 4 h0 (Allocate 3 160) = Some (Some 192, h) /\ blocks h = [(160, 60)].
Proof. eexists. split; [vm_compute; reflexivity|reflexivity]. Qed.

Example C18_history : history 48 4 h2 [MkArray 1632 2 1600; MkArray 192 3 160].
Proof.
  apply (Step 48 4 h1 [MkArray 192 3 160] (Allocate 2 1600) (Some 1632) h2).
  - apply (Step 48 4 h0 [] (Allocate 3 160) (Some 192) h1).
    + apply Start. intro a. lia.
    + cbn [may]. repeat split; try lia; try (vm_compute; congruence). intros b' len' [].
    + vm_compute. reflexivity.
  - cbn [may]. repeat split; try lia; try (vm_compute; congruence). intros b' len' I.
    replace (blocks h1) with [(160, 60)] in I by (vm_compute; reflexivity).
    destruct I as [I|[]]. injection I as I1 I2. subst. right. lia.
  - vm_compute. reflexivity.
Qed.

Example C18_given_back : exists r h, exec 48 4 h2 (Deallocate 192) = Some (r, h) /\ blocks h = [(1600, 56)].
Proof. eexists. eexists. split; [vm_compute; reflexivity|reflexivity]. Qed.

Example C18_may_write : may 48 4 h2 [MkArray 1632 2 1600; MkArray 192 3 160] (Write 203 7).
Proof. split; [lia|]. exists (MkArray 192 3 160). split; [right; left; reflexivity|]. vm_compute. split; congruence. Qed.

(* an alignment that needs two bytes for the offset, and one that needs four *)
Example C18_sizes : offset_size 256 = 2 /\ offset_size 65536 = 4 /\ natural 16 = true /\ natural 12 = false.
Proof. vm_compute. repeat split. Qed.
