(* Property theorems for token_iterator: C03. *)
From Coq Require Import List Bool Arith.
From Verif Require Import TokenModel TokenProofs.
Import ListNotations.

(* The loop terminates and, skipping empty tokens, yields exactly the non-empty
   maximal separator-free segments in order. *)
Theorem C03_tokens_skip_empty :
  forall (A : Type) (sep : A -> bool) (s : list A),
    tokens A sep s true = Some (nonempty_segments A sep s).
Proof. exact tokens_true. Qed.
Print Assumptions C03_tokens_skip_empty.
Example C03_skip_example :
  tokens nat (Nat.eqb 0) [0;0;1;2;0;0;3;0] true = Some [[1;2];[3]].
Proof. reflexivity. Qed.

(* Keeping empty tokens: all segments, only a trailing empty one is lost. *)
Theorem C03_tokens_keep_empty :
  forall (A : Type) (sep : A -> bool) (s : list A),
    tokens A sep s false = Some (segments_but_trailing_empty A sep s).
Proof. exact tokens_false. Qed.
Print Assumptions C03_tokens_keep_empty.
Example C03_keep_example :
  tokens nat (Nat.eqb 0) [0;1;0;0;3;0] false = Some [[];[1];[];[3]] /\
  tokens nat (Nat.eqb 0) [0;1;0;0;3] false = Some [[];[1];[];[3]].
Proof. split; reflexivity. Qed.

(* The specification function: a list of separator-free segments which, glued
   with separators, gives back the string; and it is the only such list. *)
Theorem C03_split_is_the_decomposition :
  forall (A : Type) (sep : A -> bool) (s : list A) (segs : list (list A)),
    segs = split A sep s <->
    (Forall (fun seg => Forall (fun c => sep c = false) seg) segs /\
     exists seps, Forall (fun c => sep c = true) seps /\ length segs = S (length seps) /\ glue A segs seps = s).
Proof.
  intros A sep s segs. split.
  - intros ->. split; [apply split_segments_clean|apply split_glue].
  - intros (H & seps & H1 & H2 & H3). exact (glue_unique A sep segs seps s H H1 H2 H3).
Qed.
Print Assumptions C03_split_is_the_decomposition.
Example C03_split_example :
  split nat (Nat.eqb 0) [1;0;0;2] = [[1];[];[2]] /\ glue nat [[1];[];[2]] [0;0] = [1;0;0;2].
Proof. split; reflexivity. Qed.

(* Every next() call terminates, and past the end it keeps returning empty
   tokens without ever becoming non-empty again. *)
Theorem C03_next_past_the_end :
  forall (A : Type) (sep : A -> bool) (s : list A) (skip : bool) (n fuel : nat) t0 t r t',
    make A sep fuel s skip = Some t0 -> steps A sep n fuel t0 = Some t -> has_next A t = false ->
    next A sep fuel t = Some (r, t') -> r = [] /\ has_next A t' = false.
Proof. exact exhausted_reachable. Qed.
Print Assumptions C03_next_past_the_end.
Example C03_past_end_example :
  exists t0 t t', make nat (Nat.eqb 0) 4 [1;0;2] false = Some t0 /\ steps nat (Nat.eqb 0) 2 4 t0 = Some t /\
    has_next nat t = false /\ next nat (Nat.eqb 0) 4 t = Some ([], t').
Proof. do 3 eexists. repeat split; reflexivity. Qed.

(* Creating the iterator ends, and so does every call of next(), however many there were before. *)
Theorem C03_next_ends :
  forall (A : Type) (sep : A -> bool) (s : list A) (skip : bool) (n : nat),
    exists t0 t r t', make A sep (S (length s)) s skip = Some t0 /\ steps A sep n (S (length s)) t0 = Some t /\
      next A sep (S (length s)) t = Some (r, t').
Proof.
  intros A sep s skip n. destruct (make_fits A sep s skip) as (t0 & E0 & F0).
  destruct (steps_total A sep (length s) n t0 F0) as (t & E & F). destruct (next_fits A sep (length s) t F) as (r & t' & E' & _).
  exists t0, t, r, t'. auto.
Qed.
Print Assumptions C03_next_ends.
Example C03_next_ends_example : exists t0 t t', make nat (Nat.eqb 0) 5 [0;1;0;2] true = Some t0 /\
  steps nat (Nat.eqb 0) 1 5 t0 = Some t /\ next nat (Nat.eqb 0) 5 t = Some ([2], t').
Proof. do 3 eexists. repeat split; reflexivity. Qed.
