(* Property theorems for actor paths: C04, C05. *)
From Coq Require Import List Bool Arith Ascii String.
From Verif Require Import ActorPathModel ActorPathProofs.
Import ListNotations.

Definition ex_sys : str := list_ascii_of_string "main".
Definition ex_names : list str := map list_ascii_of_string ["a"; "bc"; "worker_1"]%string.

(* C04: what the constructor builds, parses back to exactly its inputs. *)
Theorem C04_constructed_path_parses_back :
  forall sys sc names,
    is_valid_system_name sys = true -> sc <> unknown -> names <> [] ->
    Forall (fun n => is_valid_actor_name n = true) names ->
    exists p, build sys sc (join names) = Some p /\ parce p false = Accept (Elements sys sc names).
Proof. exact build_parce. Qed.
Print Assumptions C04_constructed_path_parses_back.
Example C04_example :
  option_map string_of_list_ascii (build ex_sys user (join ex_names)) = Some "yato://main/user/a/bc/worker_1"%string /\
  is_valid_system_name ex_sys = true /\ Forall (fun n => is_valid_actor_name n = true) ex_names.
Proof. split; [reflexivity|]. split; [reflexivity|]. repeat constructor. Qed.

(* C04: for arbitrary slash-free system names and names (any characters). *)
Theorem C04_printed_path_parses_back :
  forall sys sc names,
    slash_free sys -> sc <> unknown -> names <> [] -> Forall (fun n => n <> [] /\ slash_free n) names ->
    parce (show sys sc names) false = Accept (Elements sys sc names).
Proof. exact parce_show. Qed.
Print Assumptions C04_printed_path_parses_back.
Example C04_printed_example :
  slash_free (list_ascii_of_string "my system") /\
  parce (show (list_ascii_of_string "my system") temp ex_names) false
    = Accept (Elements (list_ascii_of_string "my system") temp ex_names).
Proof. split; [unfold slash_free; vm_compute; intuition congruence|reflexivity]. Qed.

(* C04: distinct inputs give distinct paths. *)
Theorem C04_paths_are_injective :
  forall sys sc names sys' sc' names' p,
    sc <> unknown -> sc' <> unknown -> names <> [] -> names' <> [] ->
    Forall (fun n => is_valid_actor_name n = true) names ->
    Forall (fun n => is_valid_actor_name n = true) names' ->
    build sys sc (join names) = Some p -> build sys' sc' (join names') = Some p ->
    sys = sys' /\ sc = sc' /\ names = names'.
Proof. exact build_injective. Qed.
Print Assumptions C04_paths_are_injective.

(* C04: the short name of a printed path is its last name. *)
Theorem C04_short_name_is_last :
  forall sys sc names x, slash_free x -> get_name (show sys sc (names ++ [x])) = x.
Proof. exact get_name_show. Qed.
Print Assumptions C04_short_name_is_last.
Example C04_short_name_example :
  get_name (list_ascii_of_string "yato://main/user/a/bc") = list_ascii_of_string "bc".
Proof. reflexivity. Qed.

(* C05: an accepted path is header ++ rest; the names are non-empty and
   slash-free, and printing the result is the input with slash runs in the part
   after the scope collapsed and trailing slashes dropped. *)
Theorem C05_accepted_path_is_sound :
  forall p e, parce p false = Accept e ->
  exists rest,
    p = path_root ++ e_system e ++ [slash] ++ scope_to_str (e_scope e) ++ rest /\
    slash_free (e_system e) /\ e_scope e <> unknown /\ e_names e <> [] /\
    Forall (fun n => n <> [] /\ slash_free n) (e_names e) /\
    (exists t, rest = slash :: t) /\
    path_root ++ e_system e ++ [slash] ++ scope_to_str (e_scope e) ++ squeeze rest
      = show (e_system e) (e_scope e) (e_names e).
Proof. exact parce_sound. Qed.
Print Assumptions C05_accepted_path_is_sound.
Example C05_sound_example :
  parce (list_ascii_of_string "yato://main/user//a///bc/") false
    = Accept (Elements ex_sys user (map list_ascii_of_string ["a"; "bc"]%string)) /\
  squeeze (list_ascii_of_string "//a///bc/") = list_ascii_of_string "/a/bc".
Proof. split; reflexivity. Qed.

(* C05: which strings are rejected before any name is read. *)
Theorem C05_wrong_protocol_rejected :
  forall p h, (forall t, p <> path_root ++ t) -> parce p h <> UB -> parce p h = Reject.
Proof. exact parce_rejects_root. Qed.
Print Assumptions C05_wrong_protocol_rejected.
Example C05_reject_example :
  parce (list_ascii_of_string "http://main/user/a") false = Reject /\
  parce (list_ascii_of_string "yato://main/other/a") false = Reject /\
  parce (list_ascii_of_string "yato://main/unknown/a") false = Reject /\
  parce (list_ascii_of_string "yato://main") false = Reject /\
  parce (list_ascii_of_string "yato://main/user//") false = Reject.
Proof. repeat split. Qed.

(* C05: the parser is memory safe on every string of at least seven characters,
   and reads past the end exactly on the proper prefixes of yato:// . *)
Theorem C05_long_strings_are_safe :
  forall p h, 7 <= List.length p -> parce p h <> UB.
Proof. exact parce_no_ub. Qed.
Print Assumptions C05_long_strings_are_safe.
Theorem C05_out_of_bounds_exactly_on_proper_prefixes :
  forall p h, parce p h = UB <-> exists c t, path_root = p ++ c :: t.
Proof. exact parce_ub_iff. Qed.
Print Assumptions C05_out_of_bounds_exactly_on_proper_prefixes.
Theorem C05_short_string_safe_refuted :
  exists p, List.length p < 7 /\ parce p false = UB.
Proof. exists (list_ascii_of_string "yato"). split; [vm_compute; repeat constructor|reflexivity]. Qed.
Print Assumptions C05_short_string_safe_refuted.

(* C05: header-only parsing looks at nothing after the scope. *)
Theorem C05_header_only :
  forall sys sc rest,
    slash_free sys -> sc <> unknown -> (rest = [] \/ exists t, rest = slash :: t) ->
    parce (path_root ++ sys ++ [slash] ++ scope_to_str sc ++ rest) true = Accept (Elements sys sc []).
Proof. exact parce_show_header. Qed.
Print Assumptions C05_header_only.
Example C05_header_example :
  parce (list_ascii_of_string "yato://main/dead") true = Accept (Elements ex_sys dead []).
Proof. reflexivity. Qed.

(* C04: which names the constructor takes, given by their characters. *)
Definition system_characters : str :=
  list_ascii_of_string "0123456789ABCDEFGHIJKLMNOPQRSTUVWXYZ_abcdefghijklmnopqrstuvwxyz".
Definition path_characters : str :=
  list_ascii_of_string "!""#$%&'()*+,-./0123456789:;<=>?@ABCDEFGHIJKLMNOPQRSTUVWXYZ[\]^_`abcdefghijklmnopqrstuvwxyz{|}~".
Lemma by_characters (f : ascii -> bool) (cs : str) : (forall c, f c = existsb (Ascii.eqb c) cs) ->
  forall n, nonempty n && forallb f n = true <-> n <> [] /\ forall c, In c n -> In c cs.
Proof.
  intros H n. rewrite andb_true_iff, forallb_forall. split; intros [A B]; split.
  - destruct n; discriminate.
  - intros c I. apply B in I. rewrite H in I. apply existsb_exists in I. destruct I as (d & I & E). apply Ascii.eqb_eq in E. now subst d.
  - now destruct n.
  - intros c I. rewrite H. apply existsb_exists. exists c. split; [auto|apply Ascii.eqb_refl].
Qed.
Theorem C04_which_names_are_valid : forall n,
  (is_valid_system_name n = true <-> n <> [] /\ forall c, In c n -> In c system_characters) /\
  (is_valid_actor_path n = true <-> n <> [] /\ forall c, In c n -> In c path_characters) /\
  (is_valid_actor_name n = true <-> n <> [] /\ forall c, In c n -> In c path_characters /\ c <> slash).
Proof.
  intros n. split; [|split].
  - apply by_characters. intros [[] [] [] [] [] [] [] []]; reflexivity.
  - apply by_characters. intros [[] [] [] [] [] [] [] []]; reflexivity.
  - unfold is_valid_actor_name. rewrite (by_characters _ (filter (fun c => negb (is_slash c)) path_characters)).
    + split; intros [A B]; (split; [exact A|]); intros c I; specialize (B c I).
      * apply filter_In in B. destruct B as [B1 B2]. split; [exact B1|]. intros ->. discriminate.
      * destruct B as [B1 B2]. apply filter_In. split; [exact B1|]. apply negb_true_iff. unfold is_slash. now apply Ascii.eqb_neq.
    + intros [[] [] [] [] [] [] [] []]; reflexivity.
Qed.
Print Assumptions C04_which_names_are_valid.
Theorem C04_constructor_rejects : forall sys sc name,
  build sys sc name = None <-> is_valid_system_name sys = false \/ is_valid_actor_path name = false.
Proof.
  intros sys sc name. unfold build. destruct (is_valid_system_name sys), (is_valid_actor_path name); cbn; split; auto; try discriminate; intros [H|H]; discriminate.
Qed.
Print Assumptions C04_constructor_rejects.
Example C04_valid_example :
  is_valid_system_name (list_ascii_of_string "my_System42") = true /\ is_valid_system_name (list_ascii_of_string "my-system") = false /\
  is_valid_actor_name (list_ascii_of_string "$worker-1") = true /\ is_valid_actor_path (list_ascii_of_string "a/b") = true /\
  is_valid_actor_name (list_ascii_of_string "a/b") = false /\ is_valid_actor_path (list_ascii_of_string "a b") = false.
Proof. repeat split. Qed.

(* C04: actors created one below the other get the path of their names, and only
   actors with the same names at every level get the same path. *)
Lemma join_snoc : forall names x, names <> [] -> join (names ++ [x]) = join names ++ slash :: x.
Proof.
  induction names as [|n names IH]; intros x H; [easy|]. destruct names as [|m names]; [reflexivity|].
  change ((n :: m :: names) ++ [x]) with (n :: (m :: names) ++ [x]).
  change (join (n :: (m :: names) ++ [x])) with (n ++ slash :: join ((m :: names) ++ [x])).
  rewrite IH by discriminate. change (join (n :: m :: names)) with (n ++ slash :: join (m :: names)). now rewrite <- app_assoc.
Qed.
Lemma checked_show : forall sys sc names, is_valid_system_name sys = true -> sc <> unknown -> names <> [] ->
  Forall (fun n => is_valid_actor_name n = true) names -> checked (show sys sc names) = Some (show sys sc names).
Proof.
  intros sys sc names V U N F. unfold checked. rewrite parce_show; auto.
  - cbn. destruct sc; congruence.
  - now apply valid_system_slash_free.
  - eapply Forall_impl; [|exact F]. intros n A. apply valid_name_ok in A. tauto.
Qed.
Lemma chain_show : forall t sys sc names p, is_valid_system_name sys = true -> sc <> unknown -> names <> [] ->
  Forall (fun n => is_valid_actor_name n = true) names ->
  (create_chain (show sys sc names) t = Some p <-> Forall (fun n => is_valid_actor_name n = true) t /\ p = show sys sc (names ++ t)).
Proof.
  induction t as [|n t IH]; intros sys sc names p V U N F; cbn [create_chain].
  - rewrite app_nil_r. split; [intros [= <-]; auto|now intros [_ ->]].
  - unfold create_below. destruct (is_valid_actor_name n) eqn:A.
    + assert (E : join_path (show sys sc names) n = show sys sc (names ++ [n])).
      { unfold join_path, show. rewrite join_snoc by exact N. rewrite <- !app_assoc. reflexivity. }
      assert (F' : Forall (fun n => is_valid_actor_name n = true) (names ++ [n])) by (apply Forall_app; auto).
      assert (N' : names ++ [n] <> []) by (destruct names; discriminate).
      rewrite E, checked_show by auto. rewrite (IH sys sc (names ++ [n]) p V U N' F'), <- app_assoc. cbn.
      split; intros [X Y]; (split; [|exact Y]); [now constructor|now inversion X].
    + split; [discriminate|]. intros [X _]. inversion X. congruence.
Qed.
Theorem C04_created_actors : forall sys sc names p, is_valid_system_name sys = true -> sc <> unknown ->
  (create_nested sys sc names = Some p <->
   names <> [] /\ Forall (fun n => is_valid_actor_name n = true) names /\ p = show sys sc names).
Proof.
  intros sys sc [|n t] p V U; cbn [create_nested]; [split; [discriminate|easy]|].
  unfold create_top. destruct (is_valid_actor_name n) eqn:A.
  - assert (B : build sys sc n = Some (show sys sc [n])).
    { unfold build. rewrite V. replace (is_valid_actor_path n) with true; [reflexivity|]. symmetry.
      change n with (join [n]). apply join_valid; [discriminate|auto]. }
    rewrite B, checked_show by (auto; discriminate). rewrite (chain_show t sys sc [n] p V U) by (auto; discriminate). cbn.
    split; [intros [X Y]; split; [discriminate|]; split; auto|]. intros (_ & X & Y). inversion X. auto.
  - split; [discriminate|]. intros (_ & X & _). inversion X. congruence.
Qed.
Print Assumptions C04_created_actors.
Theorem C04_created_paths_differ : forall sys sc names sys' sc' names' p,
  is_valid_system_name sys = true -> is_valid_system_name sys' = true -> sc <> unknown -> sc' <> unknown ->
  create_nested sys sc names = Some p -> create_nested sys' sc' names' = Some p -> sys = sys' /\ sc = sc' /\ names = names'.
Proof.
  intros sys sc names sys' sc' names' p V V' U U' A B.
  apply C04_created_actors in A; auto. apply C04_created_actors in B; auto. destruct A as (N & F & ->). destruct B as (N' & F' & E).
  assert (G : forall l, Forall (fun n => is_valid_actor_name n = true) l -> Forall (fun n => n <> [] /\ slash_free n) l).
  { intros l X. eapply Forall_impl; [|exact X]. intros n Y. apply valid_name_ok in Y. tauto. }
  pose proof (parce_show sys sc names (valid_system_slash_free _ V) U N (G _ F)) as P1.
  pose proof (parce_show sys' sc' names' (valid_system_slash_free _ V') U' N' (G _ F')) as P2.
  rewrite E, P2 in P1. injection P1 as -> -> ->. auto.
Qed.
Print Assumptions C04_created_paths_differ.
Theorem C04_created_name : forall sys sc names n p, is_valid_system_name sys = true -> sc <> unknown ->
  create_nested sys sc (names ++ [n]) = Some p -> get_name p = n.
Proof.
  intros sys sc names n p V U H. apply C04_created_actors in H; auto. destruct H as (_ & F & ->). apply Forall_app in F. destruct F as [_ F].
  inversion F as [|? ? A _]. apply C04_short_name_is_last. apply valid_name_ok in A. tauto.
Qed.
Print Assumptions C04_created_name.
Example C04_created_example :
  option_map string_of_list_ascii (create_nested ex_sys user ex_names) = Some "yato://main/user/a/bc/worker_1"%string /\
  create_nested ex_sys user (ex_names ++ [list_ascii_of_string "a/b"]) = None.
Proof. split; reflexivity. Qed.
