(* Property theorems for command line configs: C67, C68.  What TCLAP does is a
   parameter; assumptions about it are hypotheses. *)
From Coq Require Import String Ascii List Bool Arith NArith ZArith Sorting.Sorted Lia.
From Verif Require Import ConvertModel ConfigModel ConfigSpec ConfigProofs CmdModel CmdSpec CmdProofs.
Import ListNotations.
Local Open Scope nat_scope.
Notation variant real := (ConvertModel.value real Empty_set).

(* C67: a name can be found iff it was declared and is given or has a value of its
   own, and then it reads as the text given, in the declared type, or else as that
   value. *)
Theorem C67_values :
  forall (real : Type) (real_of_string : text -> option real) (tclap_add : list arg -> arg -> bool)
         (tclap_parse : list arg -> list str -> tresult) (ds : list decl) (c : cconf) (words : list str)
         (given : list (option str)) (cf : cfg) (n : str) (x : variant real),
    declare tclap_add ds = Ok c -> tclap_parse (c_known c) words = TDone given -> length given = length ds ->
    cparse tclap_parse c words = PDone cf ->
    ((exists i v, cfg_find n 0 cf = Some (i, v) /\ get real_of_string v = x) <-> argument real_of_string ds given n x).
Proof. exact @find_iff. Qed.
Print Assumptions C67_values.

(* C67: the index found is the position of the key; the keys are sorted; there is
   one entry for each argument that is given or has a value of its own. *)
Theorem C67_positions :
  forall (real : Type) (tclap_add : list arg -> arg -> bool)
         (tclap_parse : list arg -> list str -> tresult) (ds : list (@decl real)) (c : cconf) (words : list str)
         (given : list (option str)) (cf : cfg) (n : str) (i : nat) (v : cvalue),
    declare tclap_add ds = Ok c -> tclap_parse (c_known c) words = TDone given -> length given = length ds ->
    cparse tclap_parse c words = PDone cf ->
    (cfg_find n 0 cf = Some (i, v) <-> cfg_at cf i = Some (n, v)).
Proof. intros real. exact (find_at (fun _ => None)). Qed.
Print Assumptions C67_positions.
Theorem C67_sorted :
  forall (real : Type) (tclap_add : list arg -> arg -> bool)
         (tclap_parse : list arg -> list str -> tresult) (ds : list (@decl real)) (c : cconf) (words : list str)
         (given : list (option str)) (cf : cfg),
    declare tclap_add ds = Ok c -> tclap_parse (c_known c) words = TDone given -> length given = length ds ->
    cparse tclap_parse c words = PDone cf -> StronglySorted slt (map fst cf).
Proof. intros real. exact (sorted_keys (fun _ => None)). Qed.
Print Assumptions C67_sorted.
Theorem C67_size :
  forall (real : Type) (real_of_string : text -> option real) (tclap_add : list arg -> arg -> bool)
         (tclap_parse : list arg -> list str -> tresult) (ds : list decl) (c : cconf) (words : list str)
         (given : list (option str)) (cf : cfg),
    declare tclap_add ds = Ok c -> tclap_parse (c_known c) words = TDone given -> length given = length ds ->
    cparse tclap_parse c words = PDone cf ->
    cfg_size cf = length (filter (fun e => match expected real_of_string (snd e) (fst e) with Some _ => true | None => false end) (combine given ds)).
Proof. exact @size_exact. Qed.
Print Assumptions C67_size.

(* C67: a positional or required argument is absent only if it is not given,
   whatever default was passed. *)
Theorem C67_mandatory :
  forall (real : Type) (real_of_string : text -> option real) (d : decl) (g : option str),
    mandatory d = true -> (expected real_of_string d g = None <-> g = None).
Proof. exact @mandatory_present. Qed.
Print Assumptions C67_mandatory.

(* C67: if TCLAP refuses a name it has already, declaring never replaces a value
   TCLAP points to; if that is all it refuses, exactly the lists of distinct names
   can be declared. *)
Theorem C67_declare_safe :
  forall (real : Type) (tclap_add : list arg -> arg -> bool) (ds : list (@decl real)),
    (forall known a, In (a_name a) (map a_name known) -> tclap_add known a = false) -> declare tclap_add ds <> UB.
Proof. intros real. exact (declare_safe (fun _ => None)). Qed.
Print Assumptions C67_declare_safe.
Theorem C67_declare :
  forall (real : Type) (tclap_add : list arg -> arg -> bool) (ds : list (@decl real)),
    (forall known a, tclap_add known a = true <-> ~ In (a_name a) (map a_name known)) ->
    ((exists c, declare tclap_add ds = Ok c) <-> NoDup (map decl_name ds)).
Proof. intros real. exact (declare_ok (fun _ => None)). Qed.
Print Assumptions C67_declare.

(* a small TCLAP: names are distinct, the words are the texts of the arguments in
   order, "-" for none; "--help" raises the exit exception *)
Definition s (x : String.string) : str := String.list_ascii_of_string x.
Definition tadd (known : list (@arg Z)) (a : @arg Z) : bool := negb (existsb (fun b => seqb (a_name b) (a_name a)) known).
Definition tparse (known : list (@arg Z)) (words : list str) : tresult :=
  if existsb (seqb (s "--help")) words then TExit 0
  else TDone (map (fun i => match nth_error (tl words) i with
                            | Some w => if seqb w (s "-") then None else Some w
                            | None => None
                            end) (seq 0 (length known))).
Definition ds0 : list (@decl Z) :=
  [DInteger Positional (s "count") (Some 7%Z); DString Optional (s "name") (Some (s "anon"));
   DInteger Optional (s "level") None; DBoolean (s "verbose"); DInteger Optional (s "depth") (Some 3%Z);
   DBoolean (s "all")].
Definition c0 : @cconf Z := match declare tadd ds0 with Ok c => c | _ => CConf [] [] end.
Definition words0 : list str := map s ["prog"; "12"; "-"; "-"; "x"; "oops"]%string.
Definition given0 : list (option str) := [Some (s "12"); None; None; Some (s "x"); Some (s "oops"); None].
Definition cf0 : @cfg Z := match cparse tparse c0 words0 with PDone cf => cf | _ => [] end.
Example C67_example :
  declare tadd ds0 = Ok c0 /\ tparse (c_known c0) words0 = TDone given0 /\ length given0 = length ds0 /\
  cparse tparse c0 words0 = PDone cf0 /\ map fst cf0 = map s ["all"; "count"; "depth"; "name"; "verbose"]%string /\
  map (fun e => get int_of_string (snd e)) cf0 = [VBoolean false; VInteger 12; VVoid; VString (s "anon"); VBoolean true].
Proof. repeat split; vm_compute; reflexivity. Qed.
Example C67_tclap_example : forall known (a : @arg Z), tadd known a = true <-> ~ In (a_name a) (map a_name known).
Proof.
  intros known a. unfold tadd. rewrite negb_true_iff, <- not_true_iff_false, existsb_exists. split; intros H I; apply H.
  - apply in_map_iff in I. destruct I as (b & E & I). exists b. split; auto. rewrite E. apply seqb_refl.
  - destruct I as (b & I & E). apply seqb_spec in E. rewrite <- E. apply in_map. auto.
Qed.

(* C67: a text that is not an integer is not reported; the key is there and reads
   as no value, and the default of the argument is not used either. *)
Theorem C67_bad_text_refuted :
  exists (ds : list (@decl Z)) c words cf v i,
    declare tadd ds = Ok c /\ cparse tparse c words = PDone cf /\ In (DInteger Optional (s "depth") (Some 3%Z)) ds /\
    cfg_find (s "depth") 0 cf = Some (i, v) /\ get int_of_string v = VVoid.
Proof.
  exists ds0, c0, words0, cf0. eexists. exists 2. split; [vm_compute; reflexivity|]. split; [vm_compute; reflexivity|].
  split; [right; right; right; right; left; reflexivity|]. split; [cbn; reflexivity|]. vm_compute. reflexivity.
Qed.
Print Assumptions C67_bad_text_refuted.

(* C67: nothing but TCLAP keeps a name from being declared twice: where it takes the
   second one, it is left with a pointer to the first, which is destroyed. *)
Theorem C67_duplicate_refuted :
  exists (tclap_add : list (@arg Z) -> arg -> bool) (ds : list (@decl Z)), declare tclap_add ds = UB /\
    map decl_name ds = [s "depth"; s "depth"].
Proof. exists (fun _ _ => true), [DInteger Optional (s "depth") None; DBoolean (s "depth")]. split; vm_compute; reflexivity. Qed.
Print Assumptions C67_duplicate_refuted.

(* C68: the word after the program's name selects the alternative; its handler is
   called once, with the config made of the other words, and its status returned. *)
Theorem C68_dispatch :
  forall (real : Type) (tclap_parse : list (@arg real) -> list str -> tresult) (ops ops' : list (@dop real)) (k : str)
         (h : handler) (c : cconf) (exe : str) (rest : list str) (cf : cfg),
    forallb (other_key k) ops' = true ->
    cparse tclap_parse c (exe :: rest) = PDone cf ->
    let d := drun tclap_parse (ops ++ Register k h c :: ops') in
    exists d', dparse tclap_parse d (exe :: k :: rest) = (d', Returned (h cf)) /\
      d_calls d' = d_calls d ++ [(k, cf)] /\ d_log d' = d_log d.
Proof.
  intros real tp ops ops' k h c exe rest cf O P d. apply dispatch_call with (c := c); auto. apply still_ready. auto.
Qed.
Print Assumptions C68_dispatch.
(* C68: nothing else ever calls a handler. *)
Theorem C68_only_the_named :
  forall (real : Type) (tclap_parse : list (@arg real) -> list str -> tresult) (d : dispatcher) (words : list str) (d' : dispatcher) (r : dresult),
    dparse tclap_parse d words = (d', r) ->
    d_calls d' = d_calls d \/
    exists exe k rest h c cf, words = exe :: k :: rest /\ lookup k (d_alternatives d) = Some (h, Some c) /\
      cparse tclap_parse c (exe :: rest) = PDone cf /\ d_calls d' = d_calls d ++ [(k, cf)] /\ r = Returned (h cf).
Proof. exact @dispatch_only. Qed.
Print Assumptions C68_only_the_named.
(* C68: the handler of a key is the one registered last. *)
Theorem C68_last_registration :
  forall (real : Type) (tclap_parse : list (@arg real) -> list str -> tresult) (ops : list (@dop real)) (k : str),
    option_map fst (lookup k (d_alternatives (drun tclap_parse ops))) = option_map fst (last_registered k ops).
Proof. exact @drun_lookup. Qed.
Print Assumptions C68_last_registration.
(* C68: without a second word, or with one that is no key, no handler is called:
   the error is written and the error code returned, or config_error is thrown
   where there is no stream. *)
Theorem C68_errors :
  forall (real : Type) (tclap_parse : list (@arg real) -> list str -> tresult) (d : dispatcher) (words : list str) (m : message),
    (match first_positional words with None => m = EmptyLine | Some k => lookup k (d_alternatives d) = None /\ m = Unknown k end) ->
    let (d', r) := dparse tclap_parse d words in
    d_calls d' = d_calls d /\ d_alternatives d' = d_alternatives d /\
    (if d_stream d then d_log d' = d_log d ++ [m] /\ r = Returned (d_error d) else d_log d' = d_log d /\ r = Threw).
Proof. exact @dispatch_error. Qed.
Print Assumptions C68_errors.
(* C68: if TCLAP raises its exit exception its status is returned, no handler is
   called, and the alternative stays usable. *)
Theorem C68_exit :
  forall (real : Type) (tclap_parse : list (@arg real) -> list str -> tresult) (d : dispatcher) (exe k : str) (rest : list str)
         (h : handler) (c : cconf) (n : Z),
    lookup k (d_alternatives d) = Some (h, Some c) -> cparse tclap_parse c (exe :: rest) = PExit n ->
    dparse tclap_parse d (exe :: k :: rest) = (d, Returned n).
Proof. exact @dispatch_exit. Qed.
Print Assumptions C68_exit.
(* C68: what TCLAP makes of the words decides: its exit exception gives its status to
   the caller, and only where it ends the process itself is there no return. *)
Theorem C68_status :
  forall (real : Type) (tclap_parse : list (@arg real) -> list str -> tresult) (d : dispatcher) (exe k : str) (rest : list str)
         (h : handler) (c : cconf) (n : Z),
    lookup k (d_alternatives d) = Some (h, Some c) ->
    (tclap_parse (c_known c) (exe :: rest) = TExit n -> dparse tclap_parse d (exe :: k :: rest) = (d, Returned n)) /\
    (tclap_parse (c_known c) (exe :: rest) = TQuit n <-> dparse tclap_parse d (exe :: k :: rest) = (d, Quit n)).
Proof.
  intros real tp d exe k rest h c n L. unfold dparse. cbn [first_positional nth_error the_rest tl]. rewrite L. unfold cparse.
  destruct (tp (c_known c) (exe :: rest)); split; [|split| |split| |split]; intros E; try discriminate; injection E as ->; reflexivity.
Qed.
(* C68: the error code is 1 and the errors are written, whatever has been registered and
   dispatched. *)
Theorem C68_error_code :
  forall (real : Type) (tclap_parse : list (@arg real) -> list str -> tresult) (ops : list (@dop real)) (words : list str),
    (forall k, first_positional words = Some k -> last_registered k ops = None) ->
    snd (dparse tclap_parse (drun tclap_parse ops) words) = Returned 1.
Proof.
  intros real tp ops words N.
  assert (E : d_stream (drun tp ops) = true /\ d_error (drun tp ops) = 1%Z).
  { unfold drun. assert (G : forall ops d, d_stream d = true /\ d_error d = 1%Z ->
      d_stream (fold_left (dstep tp) ops d) = true /\ d_error (fold_left (dstep tp) ops d) = 1%Z); [|apply G; split; reflexivity].
    induction ops0 as [|o ops0 IH]; intros d D; [exact D|]. cbn [fold_left]. apply IH. destruct o as [k h b|ws]; cbn [dstep]; [exact D|].
    unfold dparse, handle_error. destruct (first_positional ws); [|destruct (d_stream d) eqn:S0; cbn; rewrite ?S0; exact D].
    destruct (lookup _ _) as [[h [c|]]|]; [|exact D|destruct (d_stream d) eqn:S0; cbn; rewrite ?S0; exact D].
    destruct (cparse _ _); exact D. }
  destruct E as [E1 E2]. unfold dparse. destruct (first_positional words) as [k|] eqn:F.
  - specialize (N k eq_refl). pose proof (drun_lookup tp ops k) as L. rewrite N in L. destruct (lookup _ _); [discriminate|].
    unfold handle_error. rewrite E1, E2. reflexivity.
  - unfold handle_error. rewrite E1, E2. reflexivity.
Qed.
Print Assumptions C68_status.
Print Assumptions C68_error_code.
(* C68: an alternative works once: the builder gives its config away, and the next
   command line with the same key reads through a null pointer. *)
Theorem C68_works_once :
  forall (real : Type) (tclap_parse : list (@arg real) -> list str -> tresult) (ops : list (@dop real)) (exe k : str) (rest : list str)
         (d' : dispatcher) (r : dresult) (exe' : str) (rest' : list str),
    dparse tclap_parse (drun tclap_parse ops) (exe :: k :: rest) = (d', r) -> d_calls d' <> d_calls (drun tclap_parse ops) ->
    dparse tclap_parse d' (exe' :: k :: rest') = (d', NullDeref).
Proof. intros real tp ops exe k rest d' r exe' rest' H N. eapply (used_up (fun _ => None) tp (drun tp ops)); [apply drun_sorted|exact H|exact N]. Qed.
Print Assumptions C68_works_once.

Definition handle0 (n : Z) : @handler Z := fun cf => (n + Z.of_nat (cfg_size cf))%Z.
Definition ops0 : list (@dop Z) :=
  [Register (s "run") (handle0 10) c0; Register (s "list") (handle0 20) c0; Register (s "run") (handle0 30) c0;
   Dispatch [s "prog"]; Dispatch (map s ["prog"; "list"; "5"]%string)].
Example C68_example :
  let d := drun tparse ops0 in
  forallb (other_key (s "run")) (skipn 3 ops0) = true /\ map fst (d_calls d) = [s "list"] /\ d_log d = [EmptyLine] /\
  snd (dparse tparse d (map s ["prog"; "run"; "12"; "-"; "-"; "x"; "oops"]%string)) = Returned 35 /\
  snd (dparse tparse d (map s ["prog"; "run"; "--help"]%string)) = Returned 0 /\
  snd (dparse tparse d (map s ["prog"; "fly"]%string)) = Returned 1 /\
  snd (dparse tparse d (map s ["prog"; "list"; "5"]%string)) = NullDeref.
Proof. repeat split; vm_compute; reflexivity. Qed.
Theorem C68_second_use_refuted :
  exists (ops : list (@dop Z)) words, forallb (other_key (s "list")) (skipn 2 ops) = true /\
    (exists h c, nth_error ops 1 = Some (Register (s "list") h c)) /\
    snd (dparse tparse (drun tparse ops) words) = Returned 25 /\
    snd (dparse tparse (fst (dparse tparse (drun tparse ops) words)) words) = NullDeref.
Proof.
  exists (firstn 4 ops0), (map s ["prog"; "list"; "5"]%string). split; [vm_compute; reflexivity|].
  split; [exists (handle0 20), c0; vm_compute; reflexivity|]. split; vm_compute; reflexivity.
Qed.
Print Assumptions C68_second_use_refuted.
