(* C74: log messages. *)
From Coq Require Import String Ascii List Bool Arith ZArith Lia.
From Verif Require Import LogModel LogSpec LogProofs.
Import ListNotations.

(* nothing is written past the buffer; the message is the heading and the text, cut to
   2047 characters, with a newline added unless there is one *)
Theorem C74_line : forall debug g c w, admits debug (filter g) c = true ->
  (Z.of_nat (length (heading c (name g))) + Z.of_nat (length (shown w)) <= 2147483647)%Z ->
  log debug g c w = LOk (Some (visible (line (firstn 2047 (heading c (name g) ++ shown w))))).
Proof. exact log_line. Qed.
(* so that a text that fits is written whole *)
Theorem C74_whole : forall debug g c w, admits debug (filter g) c = true ->
  length (heading c (name g)) + length (shown w) <= 2047 -> ~ In 0 (shown w) ->
  log debug g c w = LOk (Some (line (heading c (name g) ++ shown w))).
Proof. exact log_whole. Qed.
(* what is written is at most 2048 characters and ends with a newline, unless the text
   contains a zero *)
Theorem C74_ends : forall debug g c w s,
  (Z.of_nat (length (heading c (name g))) + Z.of_nat (length (shown w)) <= 2147483647)%Z ->
  log debug g c w = LOk (Some s) -> length s <= 2048 /\ (~ In 0 (shown w) -> exists t, s = t ++ [10]).
Proof. exact log_ends. Qed.
(* the other calls write nothing *)
Theorem C74_filtered : forall debug g c w, admits debug (filter g) c = false -> log debug g c w = LOk None.
Proof. exact log_filtered. Qed.
(* as created, a logger writes errors, warnings and information, and debug messages in
   debug builds *)
Theorem C74_default : forall debug n c, admits debug (filter (create debug n)) c = true <->
  c = CError \/ c = CWarning \/ c = CInfo \/ (c = CDebug /\ debug = true).
Proof. intros [] n []; cbn; intuition discriminate. Qed.
Print Assumptions C74_line.
Print Assumptions C74_whole.
Print Assumptions C74_ends.
Print Assumptions C74_filtered.
Print Assumptions C74_default.

Example C74_ex : log false (create false (codes "net")) CWarning (Text (codes "lost")) = LOk (Some (codes "[WARNING] net - lost" ++ [10])).
Proof. vm_compute. reflexivity. Qed.
Example C74_newline_ex : log true (create true (codes "net")) CDebug (Formatted (codes "a" ++ [10])) = LOk (Some (codes "[DEBUG]   net - a" ++ [10])).
Proof. vm_compute. reflexivity. Qed.
Example C74_long_ex : match log false (create false (codes "n")) CError (Formatted (repeat 65 5000)) with
  | LOk (Some s) => (length s =? 2048) && (last s 0 =? 10) | _ => false end = true.
Proof. vm_compute. reflexivity. Qed.
Example C74_off_ex : log false (set_filter Silent (create false [])) CError (Text (codes "x")) = LOk None.
Proof. reflexivity. Qed.
(* a zero, which a format can write, ends the message before its newline *)
Theorem C74_zero_refuted : exists w s, log false (create false (codes "net")) CInfo w = LOk (Some s) /\ last s 0 <> 10.
Proof. exists (Formatted [65; 0]), (codes "[INFO]    net - A"). vm_compute. split; [reflexivity|discriminate]. Qed.
Print Assumptions C74_zero_refuted.
