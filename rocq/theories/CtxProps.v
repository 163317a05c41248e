(* C77: the configuration of an actor system. *)
From Coq Require Import String Ascii List Bool Arith NArith ZArith Lia.
From Verif Require Import ConvertModel ConfigModel CtxModel CtxSpec CtxProofs.
From Verif Require ActorPathModel LogModel.
Import ListNotations.
Open Scope Z_scope.

Section Reals.
Variables (exact : N -> option Z) (to_real : Z -> N) (real_to_string : N -> text) (real_of_string : text -> option N).
Notation convert := (convert exact to_real real_to_string real_of_string).
Notation construct := (construct exact to_real real_to_string real_of_string).
Notation describes := (describes exact real_to_string).
Notation contexts_of := (contexts_of exact real_to_string).

(* the converter makes of a config the context it describes, and throws if it
   describes none *)
Theorem C77_context : forall b, (forall c, convert false b = inl c <-> describes b c) /\
  (forall e, convert false b = inr e <-> e = ConfigError /\ forall c, ~ describes b c).
Proof.
  intros b. split; [intros c; apply convert_iff|]. intros e. split.
  - intros F. split; [exact (convert_fails _ _ _ _ _ _ F)|]. intros c D. apply (convert_iff exact to_real real_to_string real_of_string) in D. congruence.
  - intros (-> & N). destruct (convert false b) as [c|f] eqn:F.
    + apply convert_iff in F. destruct (N _ F).
    + rewrite (convert_fails _ _ _ _ _ _ F). reflexivity.
Qed.

(* a system comes up exactly with what its configuration says *)
Theorem C77_system : forall with_io n b s, construct false with_io n b = inl s <->
  ActorPathModel.is_valid_system_name n = true /\ s_name s = n /\ level_at real_to_string b (s_level s) /\
  contexts_of b (s_default s) (s_contexts s) /\ s_contexts s <> [] /\
  flag_at b (chars "enable_io") (s_io s) /\ (s_io s = true -> with_io = true).
Proof.
  intros w n b s. unfold CtxModel.construct. destruct (ActorPathModel.is_valid_system_name n) eqn:V; cbn [negb].
  2: { split; [discriminate|]. intros (A & _). discriminate. }
  cbv zeta. destruct (init_executors exact to_real real_to_string real_of_string false b) as [[d cs]|e] eqn:I; cbn [andthen].
  - pose proof (proj1 (init_iff _ _ _ _ _ _ _) I) as [C NE].
    set (f := get_or (read_bool exact to_real real_to_string real_of_string b (chars "enable_io")) false).
    pose proof (proj1 (flag_iff exact to_real real_to_string real_of_string b (chars "enable_io") f eq_refl) eq_refl) as F.
    split.
    + destruct (f && negb w) eqn:X; [discriminate|]. intros [= <-]. cbn. split; [reflexivity|]. split; [reflexivity|].
      split; [apply (level_iff exact to_real real_to_string real_of_string); reflexivity|]. split; [exact C|]. split; [exact NE|]. split; [exact F|].
      intros Y. rewrite Y in X. destruct w; [reflexivity|discriminate].
    + intros (_ & EN & L & C' & _ & F' & IO). destruct (contexts_of_fun exact to_real real_to_string real_of_string _ _ _ _ _ C C') as [ED EC].
      apply (flag_iff exact to_real real_to_string real_of_string) in F'; [|reflexivity]. fold f in F'.
      apply (level_iff exact to_real real_to_string real_of_string) in L.
      destruct s as [sn sl sd sc si]. cbn [s_name s_level s_default s_contexts s_io] in *. subst.
      destruct (f && negb w) eqn:X; [|reflexivity]. destruct f; [|discriminate]. rewrite IO in X by reflexivity. discriminate.
  - split; [discriminate|]. intros (_ & _ & _ & C & NE & _).
    assert (init_executors exact to_real real_to_string real_of_string false b = inl (s_default s, s_contexts s)) by (apply init_iff; auto). congruence.
Qed.
(* and how it fails otherwise *)
Theorem C77_failure : forall with_io n b e, construct false with_io n b = inr e ->
  (e = ArgumentError /\ (ActorPathModel.is_valid_system_name n = false \/ (with_io = false /\ flag_at b (chars "enable_io") true))) \/
  (e = BadOptional /\ forall d cs, ~ contexts_of b d cs) \/
  (e = ConfigError /\ exists d, contexts_of b d []).
Proof.
  intros w n b e. unfold CtxModel.construct. destruct (ActorPathModel.is_valid_system_name n) eqn:V; cbn [negb].
  2: { intros [= <-]. auto. }
  cbv zeta. destruct (init_executors exact to_real real_to_string real_of_string false b) as [[d cs]|f] eqn:I; cbn [andthen].
  - destruct (get_or (read_bool exact to_real real_to_string real_of_string b (chars "enable_io")) false) eqn:F; [|discriminate].
    apply flag_iff in F; [|reflexivity]. destruct w; [discriminate|]. intros [= <-]. left. auto.
  - intros [= <-]. apply init_fails in I. destruct I as [I|I]; auto.
Qed.
(* numbers that fit are taken as they are *)
Theorem C77_counts : forall b k d z n, stored b k (VInt z) -> 0 <= z < 2 ^ 32 -> (count_at exact b k d n <-> n = z).
Proof.
  intros b k d z n S R. unfold count_at. split.
  - intros [(v & x & S' & X & ->)|(_ & N)].
    + rewrite (stored_fun _ _ _ _ S' S) in X. inversion X; subst. apply Z.mod_small. exact R.
    + destruct (N _ _ S (n_int _ z)).
  - intros ->. left. exists (VInt z), z. split; [exact S|]. split; [constructor|]. symmetry. apply Z.mod_small. exact R.
Qed.
(* a debug build does the same unless it stops at a number *)
Theorem C77_debug : forall with_io n b, construct true with_io n b = construct false with_io n b \/ construct true with_io n b = inr Aborted.
Proof. exact (construct_debug exact to_real real_to_string real_of_string). Qed.
End Reals.
Print Assumptions C77_context.
Print Assumptions C77_system.
Print Assumptions C77_failure.
Print Assumptions C77_counts.
Print Assumptions C77_debug.

(* the example in the comment of config.h:10-33 *)
Definition obj (l : list (string * ConfigModel.value)) : option conf := Some (Conf KOrdered (map (fun p => (chars (fst p), Some (snd p))) l)).
Definition arr (l : list (option conf)) : ConfigModel.value := VConf (Some (Conf KArray (map (fun b => ([], Some (VConf b))) l))).
Definition txt (s : string) : ConfigModel.value := VStr (chars s).
Definition documented : option conf := obj [
  ("execution_contexts"%string, arr [
     obj [("name"%string, txt "dynamic"); ("type"%string, txt "thread_pool"); ("threads_num"%string, VInt 3); ("throughput"%string, txt "7")];
     obj [("name"%string, txt "fixed"); ("type"%string, txt "pinned")]]);
  ("default_executor"%string, txt "dynamic"); ("log_level"%string, txt "debug"); ("enable_io"%string, txt "no")].
Notation plain_construct := (construct (fun _ => None) (fun _ => 0%N) (fun _ => []) (fun _ => None)).
Example C77_ex : plain_construct false false (chars "sys") documented = inl (System (chars "sys") LogModel.Debug (chars "dynamic")
  [Context (chars "dynamic") (ThreadPool 3 7); Context (chars "fixed") (Pinned 16)] false).
Proof. vm_compute. reflexivity. Qed.
Example C77_empty_ex : plain_construct false false (chars "sys") None = inl (System (chars "sys") LogModel.Info (chars "default")
  [Context (chars "default") (ThreadPool 4 5)] false).
Proof. vm_compute. reflexivity. Qed.
Example C77_bad_name_ex : plain_construct false false (chars "a/b") None = inr ArgumentError.
Proof. reflexivity. Qed.
Definition one (l : list (string * ConfigModel.value)) : option conf := obj [("default_executor"%string, txt "x"); ("execution_contexts"%string, arr [obj l])].
Example C77_debug_ex : plain_construct true false (chars "sys") (one [("name"%string, txt "x"); ("type"%string, txt "pinned"); ("threads_limit"%string, VInt (-1))]) = inr Aborted.
Proof. vm_compute. reflexivity. Qed.
(* a number of threads that does not fit, or is none, is accepted: here the system has
   no thread at all *)
Theorem C77_wrap_refuted : exists b s, plain_construct false false (chars "sys") b = inl s /\
  stored b (chars "default_executor") (txt "x") /\ s_contexts s = [Context (chars "x") (ThreadPool 0 5)].
Proof.
  exists (one [("name"%string, txt "x"); ("type"%string, txt "thread_pool"); ("threads_num"%string, VInt (2 ^ 32))]).
  eexists. split; [vm_compute; reflexivity|]. split; [|reflexivity]. exists KOrdered, [], (tl (centries (match one [("name"%string, txt "x"); ("type"%string, txt "thread_pool"); ("threads_num"%string, VInt (2 ^ 32))] with Some c => c | None => Conf KMap [] end))).
  split; [reflexivity|]. split; [discriminate|auto].
Qed.
(* a number that cannot be read counts as absent *)
Theorem C77_word_refuted : exists b s, plain_construct false false (chars "sys") b = inl s /\
  s_contexts s = [Context (chars "x") (ThreadPool 4 5)] /\ b = one [("name"%string, txt "x"); ("type"%string, txt "thread_pool"); ("threads_num"%string, txt "eight")].
Proof. do 2 eexists. split; [|split; [|reflexivity]]; [vm_compute; reflexivity|reflexivity]. Qed.
(* the error of the converter, which names the cause, does not reach the caller *)
Theorem C77_error_refuted : exists b c, convert (fun _ => None) (fun _ => 0%N) (fun _ => []) (fun _ => None) false c = inr ConfigError /\
  b = obj [("execution_contexts"%string, arr [c])] /\ plain_construct false false (chars "sys") b = inr BadOptional.
Proof.
  exists (obj [("execution_contexts"%string, arr [obj [("name"%string, txt "x"); ("type"%string, txt "pool")]])]), (obj [("name"%string, txt "x"); ("type"%string, txt "pool")]).
  split; [reflexivity|]. split; [reflexivity|]. vm_compute. reflexivity.
Qed.
Print Assumptions C77_wrap_refuted.
Print Assumptions C77_word_refuted.
Print Assumptions C77_error_refuted.
