(* C116: servers and clients of the tcp manager *)
From Coq Require Import List Bool Arith Ascii String Lia.
From Verif Require Import ActorPathModel.
From Verif Require PortModel PortProofs.
From Verif Require Import DialModel DialProofs.
Import ListNotations.

(* ---- what is meant ---- *)
Definition Address := PortModel.Address.
Definition host := PortModel.host.
Definition port := PortModel.port.
(* the address can be in the name of an actor *)
Definition nameable (a : address) : Prop := Forall (fun c => 33 <= nat_of_ascii c <= 126 /\ c <> slash) (host a).
(* two listening sockets the kernel does not allow side by side *)
Definition conflict (e f : endpoint) : Prop := snd e = snd f /\ (fst e = fst f \/ fst e = 0 \/ fst f = 0).
(* a child made for the address exists *)
Definition has_child (s : state) (a : address) : Prop := exists k, In k (items s) /\ ph k <> Leaving /\ asked k = a.
(* an address is bound or connected to only while no child made for it exists *)
Fixpoint orderly (resolve : str -> option ip) (s : state) (es : list event) : Prop :=
  match es with
  | [] => True
  | e :: t =>
      match e with
      | Bind _ a => ~ has_child s a
      | Connect h a ok => h <> None -> ok = true -> ~ has_child s a
      | _ => True
      end /\ match step resolve s e with Some s' => orderly resolve s' t | None => True end
  end.
(* what the actors do by themselves *)
Definition internal (e : event) : Prop :=
  match e with Serve | Discard | Start _ _ _ | Stop _ | Free _ | Close _ => True | _ => False end.
(* who was told of connections by child n, and of which *)
Fixpoint connections (n : nat) (l : list (nat * answer)) : list (nat * endpoint) :=
  match l with
  | [] => []
  | (h, Connected e m) :: t => if m =? n then (h, e) :: connections n t else connections n t
  | _ :: t => connections n t
  end.

Lemma orderly_spaced : forall resolve es s, orderly resolve s es -> spaced resolve s es.
Proof.
  assert (A : forall s a, ~ has_child s a -> ~ In a (present s)).
  { intros s a H I. apply H. unfold present in I. apply in_map_iff in I. destruct I as (k & E & I). apply filter_In in I. destruct I as [I J].
    exists k. split; [exact I|]. split; [|exact E]. intros X. rewrite X in J. discriminate. }
  induction es as [|e es IH]; cbn; intros s O; [exact I|]. destruct O as [O1 O2]. split.
  - destruct e; cbn; auto. destruct h; auto. destruct ok; auto. apply A, O1; auto. discriminate.
  - destruct (step resolve s e); auto.
Qed.
Lemma name_ok : forall a, is_valid_actor_name (to_string a) = true <-> nameable a.
Proof.
  intros a. rewrite PortProofs.valid_name. unfold nameable, host. tauto.
Qed.
Lemma clash_iff : forall e f, clash e f = true <-> conflict e f.
Proof.
  intros e f. unfold clash, conflict. rewrite andb_true_iff, !orb_true_iff, !Nat.eqb_eq. tauto.
Qed.
Lemma clash_not : forall e f, clash e f = false <-> ~ conflict e f.
Proof. intros e f. rewrite <- clash_iff. destruct (clash e f); split; congruence. Qed.

(* ---- examples: addresses of one machine ---- *)
Definition chars := list_ascii_of_string.
Definition res (h : str) : option ip :=
  if str_eqb h (chars "0.0.0.0") then Some 0
  else if str_eqb h (chars "127.0.0.1") then Some 1
  else if str_eqb h (chars "localhost") then Some 1
  else if str_eqb h (chars "10.0.0.7") then Some 7 else None.
Definition here80 := Address (chars "127.0.0.1") 80.
Definition local80 := Address (chars "localhost") 80.
Definition here90 := Address (chars "127.0.0.1") 90.
Definition far80 := Address (chars "10.0.0.7") 80.

(* ---- who listens ---- *)
Theorem C116_listeners : forall resolve es s, run resolve init es = Some s ->
  (forall n e m f, In (n, e) (open s) -> In (m, f) (open s) -> conflict e f -> n = m /\ e = f) /\
  (forall n e f, In (n, e) (open s) -> In f (others s) -> ~ conflict e f) /\
  (forall n e, In (n, e) (open s) -> exists k, In k (items s) /\ num k = n /\ what k = Server /\ fst e = fst (point k) /\ (snd (point k) <> 0 -> e = point k) /\
     (ph k = Active \/ ph k = Ended \/ ph k = Leaving)) /\
  (forall k, In k (items s) -> what k = Server -> ph k = Active -> exists e, In (num k, e) (open s)).
Proof.
  intros resolve es s H. destruct (all_run resolve es init s io_init mo_init oo_init H) as (P & M & O).
  split; [|split; [|split]].
  - intros n e m f I J C. destruct O as [A _ N _ _]. clear - A I J C.
    induction (open s) as [|[x g] l IH]; [destruct I|]. cbn in *. inversion A as [|? ? A1 A2]; subst.
    destruct I as [I|I], J as [J|J]; [split; congruence| | |auto].
    + injection I as -> ->. apply (in_map snd) in J. apply A2, clash_not in J. now destruct J.
    + injection J as -> ->. apply (in_map snd) in I. apply A2 in I. rewrite clash_sym in I. apply clash_not in I. now destruct I.
  - intros n e f I J. apply clash_not. apply (o_others _ O); [|exact J]. apply (in_map snd) in I. exact I.
  - intros n e I. destruct (o_item _ O n e I) as (_ & k & J & N & W & Y & X1 & X2). exists k. auto 8.
  - intros k I W A. pose proof (o_active _ O k I A W) as X. apply in_map_iff in X. destruct X as ([m e] & E & X). cbn in E. subst m. now exists e.
Qed.
Print Assumptions C116_listeners.
Definition two_servers : list event := [Bind 1 here80; Serve; Start 0 true 0; Bind 2 here90; Serve; Start 1 true 0].
Example C116_listeners_ex : exists s, run res init (two_servers ++ [OtherListens (7, 80)]) = Some s /\
  open s = [(0, (1, 80)); (1, (1, 90))] /\ others s = [(7, 80)] /\ step res s (OtherListens (0, 90)) = None /\ told s = [(1, Bound here80); (2, Bound here90)].
Proof. eexists. split; [vm_compute; reflexivity|]. vm_compute. auto 6. Qed.

(* ---- the commands ---- *)
Definition adds (h : nat) (a : address) (w : kind) (i : ip) (s s' : state) : Prop :=
  items s' = items s ++ [Item (next s) a h w (i, port a) Made] /\ notes s' = notes s ++ [Attach (next s)].
Theorem C116_bind : forall resolve s h a, stopped s = false -> broken s = false ->
  exists s', step resolve s (Bind h a) = Some s' /\
    (forall i, resolve (host a) = Some i -> nameable a ->
       adds h a Server i s s' /\ told s' = told s ++ (if in_dec Nat.eq_dec h (gone s) then [] else [(h, Bound a)])) /\
    (forall i, resolve (host a) = Some i -> ~ nameable a -> s' = s) /\
    (broken s' = true <-> resolve (host a) = None).
Proof.
  intros resolve s h a U B. exists (bind resolve h a s). unfold step. rewrite B, U. split; [reflexivity|]. unfold bind, host.
  destruct (resolve (PortModel.host a)) as [i|] eqn:R.
  - split; [|split].
    + intros j J V. injection J as <-. apply name_ok in V. rewrite V. unfold tell, adds. cbn [gone create with_next with_notes with_items].
      destruct (in_dec Nat.eq_dec h (gone s)) as [X|X].
      * apply mem_in in X. rewrite X. cbn. rewrite app_nil_r. auto.
      * apply mem_out in X. rewrite X. cbn. auto.
    + intros j J V. destruct (is_valid_actor_name (to_string a)) eqn:E; [|reflexivity]. apply name_ok in E. now destruct V.
    + destruct (is_valid_actor_name (to_string a)); [|split; congruence]. unfold tell. cbn [gone create with_next with_notes with_items].
      destruct (PortModel.mem h (gone s)); cbn; split; congruence.
  - split; [discriminate|]. split; [discriminate|]. cbn. tauto.
Qed.
Print Assumptions C116_bind.
Theorem C116_connect : forall resolve s h a ok, stopped s = false -> broken s = false ->
  exists s', step resolve s (Connect (Some h) a ok) = Some s' /\
    (forall i, resolve (host a) = Some i -> ok = true -> nameable a -> adds h a Client i s s' /\ told s' = told s) /\
    (forall i, resolve (host a) = Some i -> ok = true -> ~ nameable a -> s' = s) /\
    (forall i, resolve (host a) = Some i -> ok = false -> items s' = items s /\
       told s' = told s ++ (if in_dec Nat.eq_dec h (gone s) then [] else [(h, CommandFail a)])) /\
    (broken s' = true <-> resolve (host a) = None).
Proof.
  intros resolve s h a ok U B. exists (connect resolve (Some h) a ok s). unfold step. rewrite B, U. split; [reflexivity|]. unfold connect, host.
  destruct (resolve (PortModel.host a)) as [i|] eqn:R.
  - split; [|split; [|split]].
    + intros j J -> V. injection J as <-. apply name_ok in V. rewrite V. unfold adds. cbn. auto.
    + intros j J -> V. destruct (is_valid_actor_name (to_string a)) eqn:E; [|reflexivity]. apply name_ok in E. now destruct V.
    + intros j J ->. unfold tell. destruct (in_dec Nat.eq_dec h (gone s)) as [X|X].
      * apply mem_in in X. rewrite X, app_nil_r. auto.
      * apply mem_out in X. rewrite X. cbn. auto.
    + destruct ok.
      * destruct (is_valid_actor_name (to_string a)); cbn; split; congruence.
      * unfold tell. destruct (PortModel.mem h (gone s)); cbn; split; congruence.
  - split; [discriminate|]. split; [discriminate|]. split; [discriminate|]. cbn. tauto.
Qed.
Print Assumptions C116_connect.
Example C116_connect_ex : exists s, run res init [Bind 1 here80; Serve; Connect (Some 2) far80 true; Connect (Some 3) far80 false; Connect None far80 true] = Some s /\
  map what (items s) = [Server; Client] /\ map owner (items s) = [1; 2] /\ map point (items s) = [(1, 80); (7, 80)] /\ told s = [(1, Bound here80); (3, CommandFail far80)] /\
  nameable far80.
Proof. eexists. split; [vm_compute; reflexivity|]. split; [reflexivity|]. split; [reflexivity|]. split; [reflexivity|]. split; [reflexivity|].
  apply name_ok. reflexivity. Qed.

(* a listener is started exactly if its endpoint is free; if it is not, nobody is told *)
Theorem C116_listen : forall resolve es s k pick, run resolve init es = Some s -> broken s = false -> In k (items s) -> what k = Server -> ph k = Idle -> snd (point k) <> 0 ->
  exists s' k', step resolve s (Start (num k) true pick) = Some s' /\ In k' (items s') /\ num k' = num k /\ owner k' = owner k /\ told s' = told s /\
    (ph k' = Active <-> forall e, In e (map snd (open s)) \/ In e (others s) -> ~ conflict (point k) e) /\
    (ph k' = Active -> open s' = open s ++ [(num k, point k)]) /\
    (ph k' <> Active -> ph k' = Failed /\ open s' = open s).
Proof.
  intros resolve es s k pick H B I W J Z. destruct (all_run resolve es init s io_init mo_init oo_init H) as (P & M & O).
  exists (start k true pick s). unfold step. rewrite B, (get_some s k (p_num _ P) I), J. cbn [is_phase].
  unfold start. rewrite W. pose proof Z as Z'. apply Nat.eqb_neq in Z'. rewrite Z'.
  replace (fst (point k), snd (point k)) with (point k) by now destruct (point k). rewrite Z'. cbn [andb negb].
  assert (CL : existsb (clash (point k)) (listening s) = false <-> forall e, In e (map snd (open s)) \/ In e (others s) -> ~ conflict (point k) e).
  { unfold listening. split.
    - intros X e Y. apply clash_not. apply (clear_all _ _ X). now apply in_app_iff.
    - intros X. destruct (existsb _ _) eqn:Q; [|reflexivity]. exfalso. apply existsb_exists in Q. destruct Q as (e & Y & Q). apply clash_iff in Q.
      apply in_app_iff in Y. now apply (X e). }
  destruct (existsb (clash (point k)) (listening s)) eqn:Q; cbn [negb].
  - exists (set_ph Failed k). split; [reflexivity|]. split; [cbn; apply in_map_iff; exists k; now rewrite Nat.eqb_refl|]. cbn.
    split; [reflexivity|]. split; [reflexivity|]. split; [reflexivity|]. split; [|split; [discriminate|auto]]. split; [discriminate|]. intros X. apply CL in X. discriminate.
  - exists (set_ph Active k). split; [reflexivity|]. split; [cbn; apply in_map_iff; exists k; now rewrite Nat.eqb_refl|]. cbn.
    split; [reflexivity|]. split; [reflexivity|]. split; [reflexivity|]. split; [|split; [reflexivity|now intros []]]. split; [|reflexivity]. intros _. now apply CL.
Qed.
Print Assumptions C116_listen.
Example C116_listen_ex : exists s s', run res init [Bind 1 here80; Serve; Bind 2 here90; Serve; OtherListens (0, 90)] = Some s /\ map ph (items s) = [Idle; Idle] /\
  run res s [Start 0 true 0; Start 1 true 0] = Some s' /\ map ph (items s') = [Active; Failed] /\ open s' = [(0, (1, 80))].
Proof. do 2 eexists. split; [vm_compute; reflexivity|]. split; [reflexivity|]. split; [vm_compute; reflexivity|]. vm_compute. auto. Qed.

(* ---- who is told of connections ---- *)
Lemma connections_by : forall n l, connections n l = by_ n l.
Proof.
  induction l as [|[h m] l IH]; [reflexivity|]. change (by_ n ((h, m) :: l)) with (by_ n ([(h, m)] ++ l)). rewrite by_app, <- IH.
  destruct m as [a|e m|a]; [reflexivity| |reflexivity]. rewrite by_one. cbn. destruct (m =? n); reflexivity.
Qed.
Theorem C116_told : forall resolve es s k, run resolve init es = Some s -> In k (items s) ->
  (forall x, In x (connections (num k) (told s)) -> fst x = owner k) /\
  (ph k = Made \/ ph k = Idle \/ ph k = Failed -> connections (num k) (told s) = []) /\
  (what k = Client ->
     (connections (num k) (told s) = [] \/ connections (num k) (told s) = [(owner k, point k)]) /\
     (ph k = Active \/ ph k = Ended -> ~ In (owner k) (gone s) -> connections (num k) (told s) = [(owner k, point k)])).
Proof.
  intros resolve es s k H I. pose proof (D_run resolve es init s io_init mo_init oo_init D_init H) as X. rewrite connections_by.
  destruct (d_item _ X k I) as (A & B & C). split; [|split; [exact B|exact C]]. intros x J. rewrite Forall_forall in A. now apply A.
Qed.
Print Assumptions C116_told.
Definition talks : list event := two_servers ++ [Connect (Some 3) far80 true; Serve; Start 2 true 0; Accept 1 (7, 555); Accept 0 (7, 556); Accept 1 (7, 557)].
Example C116_told_ex : exists s, run res init talks = Some s /\ connections 2 (told s) = [(3, (7, 80))] /\
  connections 1 (told s) = [(2, (7, 555)); (2, (7, 557))] /\ connections 0 (told s) = [(1, (7, 556))].
Proof. eexists. split; [vm_compute; reflexivity|]. vm_compute. auto. Qed.

(* ---- addresses used by one child at a time ---- *)
Theorem C116_running_stays : forall resolve es s e s' k, orderly resolve init es -> run resolve init es = Some s ->
  step resolve s e = Some s' -> In k (items s) -> ph k = Active ->
  exists k', In k' (items s') /\ num k' = num k /\ owner k' = owner k /\ point k' = point k /\
    (ph k' = Active \/ (e = Stop (num k) /\ ph k' = Ended)).
Proof.
  intros resolve es s e s' k F H E I A. destruct (ok_run resolve es init s io_init (ko_init) (orderly_spaced _ _ _ F) H) as [P K].
  destruct (stays_step resolve s e s' k P K E I) as (k' & I' & (S1 & S2 & S3 & S4 & S5) & X); [left; exact A|].
  exists k'. split; [exact I'|]. split; [exact S1|]. split; [exact S3|]. split; [exact S5|]. rewrite A in X. tauto.
Qed.
Print Assumptions C116_running_stays.
Theorem C116_settles : forall resolve es s, orderly resolve init es -> run resolve init es = Some s ->
  exists bound, forall es' s', Forall internal es' -> run resolve s es' = Some s' -> List.length es' <= bound.
Proof.
  intros resolve es s F H. destruct (ok_run resolve es init s io_init ko_init (orderly_spaced _ _ _ F) H) as [P K].
  exists (measure s). intros es' s' O H'. pose proof (measure_run resolve es' s s' P K O H'). lia.
Qed.
Print Assumptions C116_settles.
(* at rest the manager has stopped, unless a child has failed to start *)
Theorem C116_rest : forall resolve es s, orderly resolve init es -> run resolve init es = Some s -> broken s = false ->
  stopping s = true -> (forall e, internal e -> step resolve s e = None) ->
  (forall k, In k (items s) -> ph k = Failed) /\ open s = [] /\ (stopped s = true <-> items s = []).
Proof.
  intros resolve es s F H B ST R. destruct (ok_run resolve es init s io_init ko_init (orderly_spaced _ _ _ F) H) as [P K].
  destruct (all_run resolve es init s io_init mo_init oo_init H) as (_ & _ & O). exact (rest resolve s P K O B ST R).
Qed.
Print Assumptions C116_rest.
Definition closing : list event := talks ++ [Shutdown; Stop 1; Free 1; Stop 2; Serve; Stop 0; Serve; Serve; Close 2; Close 0; Close 1].
Ltac no_child := let k := fresh in let I := fresh in let L := fresh in let A := fresh in
  intros (k & I & L & A); cbn in I; repeat (destruct I as [I|I]; [subst k; cbn in *; try congruence; discriminate|]); now destruct I.
Example C116_rest_ex : exists s, run res init closing = Some s /\ orderly res init closing /\ stopped s = true /\ items s = [] /\ open s = [].
Proof.
  eexists. split; [vm_compute; reflexivity|]. split; [|vm_compute; auto].
  unfold closing, talks, two_servers. cbn [app].
  repeat (cbn [orderly]; split; [first [exact I|no_child|intros _ _; no_child]|];
    match goal with |- context [step res ?s ?e] => let r := eval vm_compute in (step res s e) in change (step res s e) with r; cbv beta iota end).
  exact I.
Qed.

(* ---- what keeps the manager from stopping, whatever the names ---- *)
Theorem C116_failed : forall resolve es s n ok pick s1 k es' s2, run resolve init es = Some s -> step resolve s (Start n ok pick) = Some s1 ->
  In k (items s1) -> num k = n -> ph k = Failed -> run resolve s1 es' = Some s2 -> stopped s2 = false.
Proof.
  intros resolve es s n ok pick s1 k es' s2 H E I N F H2. pose proof (io_run resolve es init s io_init H) as P.
  pose proof (ex_run resolve es 0 init s io_init ex_init H) as X. pose proof (end_run resolve es init s end_init H) as A.
  pose proof (fails_excess resolve 0 s n ok pick s1 k P X E I N F) as X1.
  apply (never_stops resolve es' 0 s1 s2); auto; [eapply io_step; eauto|eapply end_step; eauto].
Qed.
Print Assumptions C116_failed.
(* a child that is destroyed without having stopped *)
Theorem C116_killed : forall resolve es s s1 k k' es' s2, run resolve init es = Some s -> In k (items s) -> ph k = Idle \/ ph k = Active ->
  step resolve s Serve = Some s1 -> In k' (items s1) -> num k' = num k -> ph k' = Leaving -> run resolve s1 es' = Some s2 -> stopped s2 = false.
Proof.
  intros resolve es s s1 k k' es' s2 H I A E I' N' L H2. destruct (all_run resolve es init s io_init mo_init oo_init H) as (P & M & O).
  pose proof (ex_run resolve es 0 init s io_init ex_init H) as X. pose proof (end_run resolve es init s end_init H) as Z.
  assert (AL : alive k = true) by (unfold alive; destruct A as [-> | ->]; reflexivity).
  assert (AL' : alive k' = false) by (unfold alive; now rewrite L).
  destruct (notes s) as [|[n|m] t] eqn:EN.
  - unfold step in E. rewrite EN in E. destruct (broken s); discriminate.
  - exfalso. assert (NK : num k <> n).
    { intros Y. assert (ph k = Made) by (apply (m_made _ M n); auto; apply in_pending; rewrite EN; now left). destruct A; congruence. }
    unfold step in E. rewrite EN in E. destruct (broken s); [discriminate|]. destruct (stopped s); [discriminate|]. injection E as <-. cbn [serve] in I'.
    assert (Q : forall p, In k' (items (update n p s)) -> False).
    { intros p J. apply in_chg in J. destruct J as [(k0 & I0 & N0 & ->)|[J _]]; [cbn in N'; congruence|].
      rewrite (num_eq s k' k P J I N') in AL'. congruence. }
    change (stopping (with_notes t s)) with (stopping s) in I'. destruct (stopping s); [exact (Q Leaving I')|].
    destruct (get n (with_notes t s)) as [k0|]; [exact (Q Idle I')|]. cbn in I'. rewrite (num_eq s k' k P I' I N') in AL'. congruence.
  - pose proof (killed_excess resolve 0 s m t s1 k k' P X EN E I AL I' N' AL') as X1.
    apply (never_stops resolve es' 0 s1 s2); auto; [eapply io_step; eauto|eapply end_step; eauto].
Qed.
Print Assumptions C116_killed.
(* of two running children made for one address the younger takes the elder with it *)
Theorem C116_twins : forall resolve es s k1 k2 l1 l2, run resolve init es = Some s -> broken s = false -> stopped s = false -> notes s = [] ->
  In k1 (items s) -> In k2 (items s) -> num k1 <> num k2 -> ph k1 = Active -> ph k2 = Active -> asked k1 = asked k2 ->
  kids s = l1 ++ (num k1, to_string (asked k1)) :: l2 -> (forall n, ~ In (n, to_string (asked k1)) l1) ->
  exists s', run resolve s [Stop (num k2); Serve] = Some s' /\
    (exists k, In k (items s') /\ num k = num k1 /\ ph k = Leaving) /\
    (exists k, In k (items s') /\ num k = num k2 /\ ph k = Ended) /\
    forall es' s2, run resolve s' es' = Some s2 -> stopped s2 = false.
Proof.
  intros resolve es s k1 k2 l1 l2 H B U EN I1 I2 D A1 A2 SA EK NL. pose proof (io_run resolve es init s io_init H) as P.
  assert (FN : forall l, (forall n, ~ In (n, to_string (asked k1)) l) -> first_named (to_string (asked k1)) (l ++ (num k1, to_string (asked k1)) :: l2) = Some (num k1)).
  { induction l as [|[n m] l IH]; cbn; intros N.
    - replace (str_eqb (to_string (asked k1)) (to_string (asked k1))) with true; [reflexivity|]. symmetry. now apply str_eqb_eq.
    - destruct (str_eqb m (to_string (asked k1))) eqn:X; [|apply IH; intros x Y; apply (N x); now right].
      apply str_eqb_eq in X. subst m. exfalso. apply (N n). now left. }
  set (s1 := with_notes [Detach (to_string (asked k2))] (update (num k2) Ended s)).
  assert (E1 : step resolve s (Stop (num k2)) = Some s1).
  { unfold step. rewrite B, (get_some s k2 (p_num _ P) I2), A2. cbn [is_phase]. rewrite EN. reflexivity. }
  set (s3 := update (num k1) Leaving (with_kids (drop_first (to_string (asked k1)) (kids s)) (with_notes [] s1))).
  assert (E2 : step resolve s1 Serve = Some (maybe_stop s3)).
  { unfold step. change (broken s1) with (broken s). change (stopped s1) with (stopped s). rewrite B, U. cbn [notes s1 with_notes serve].
    change (kids (with_notes [] s1)) with (kids s). rewrite <- SA, EK, (FN l1 NL). unfold s3. now rewrite <- EK. }
  exists (maybe_stop s3). split; [unfold run; now rewrite E1, E2|].
  destruct (maybe_frame s3) as (F1 & _).
  assert (J1 : In k1 (items s1)) by (apply (in_chg (num k2) Ended s); right; auto).
  assert (L1 : In (set_ph Leaving k1) (items (maybe_stop s3))).
  { rewrite F1. apply (in_chg (num k1) Leaving s1). left. exists k1. auto. }
  split; [exists (set_ph Leaving k1); auto|]. split.
  - exists (set_ph Ended k2). split; [|auto]. rewrite F1. apply (in_chg (num k1) Leaving s1). right. split; [|cbn; auto].
    apply (in_chg (num k2) Ended s). left. exists k2. auto.
  - intros es' s2 H2. apply (C116_killed resolve (es ++ [Stop (num k2)]) s1 (maybe_stop s3) k1 (set_ph Leaving k1) es' s2); auto.
    apply run_app. exists s. split; [exact H|]. unfold run. now rewrite E1.
Qed.
Print Assumptions C116_twins.

(* ---- what does not hold ---- *)
(* two connections to one server: closing the second destroys the first *)
Theorem C116_same_server_refuted : exists es s s', run res init es = Some s /\ told s = [(1, Connected (7, 80) 0); (2, Connected (7, 80) 1)] /\ map ph (items s) = [Active; Active] /\
  run res s [Stop 1; Serve; Close 0; Shutdown] = Some s' /\ map num (items s') = [1] /\ map ph (items s') = [Ended] /\ stopped s' = false /\
  (forall e, internal e -> step res s' e = None).
Proof.
  exists [Connect (Some 1) far80 true; Serve; Start 0 true 0; Connect (Some 2) far80 true; Serve; Start 1 true 0]. do 2 eexists.
  split; [vm_compute; reflexivity|]. split; [reflexivity|]. split; [reflexivity|]. split; [vm_compute; reflexivity|].
  split; [reflexivity|]. split; [reflexivity|]. split; [reflexivity|].
  intros e O. destruct e; cbn in O; try easy; destruct n as [|[|n]]; reflexivity.
Qed.
Print Assumptions C116_same_server_refuted.
(* a program that connects to its own server: closing the connection destroys the listener *)
Theorem C116_own_server_refuted : exists es s s', run res init es = Some s /\ told s = [(1, Bound here80); (2, Connected (1, 80) 1)] /\ open s = [(0, (1, 80))] /\
  run res s [Stop 1; Serve; Close 0] = Some s' /\ open s' = [] /\ map num (items s') = [1] /\ map ph (items s') = [Ended].
Proof.
  exists [Bind 1 here80; Serve; Start 0 true 0; Connect (Some 2) here80 true; Serve; Start 1 true 0]. do 2 eexists.
  split; [vm_compute; reflexivity|]. split; [reflexivity|]. split; [reflexivity|]. split; [vm_compute; reflexivity|]. auto.
Qed.
Print Assumptions C116_own_server_refuted.
(* bound is told to a handler for which nobody listens; the manager does not stop any more.
   The two addresses have different names *)
Theorem C116_bound_refuted : exists es s, run res init es = Some s /\ orderly res init es /\ told s = [(1, Bound here80); (2, Bound local80)] /\
  open s = [(0, (1, 80))] /\ map ph (items s) = [Active; Failed] /\ forall es' s', run res s es' = Some s' -> stopped s' = false.
Proof.
  set (es := [Bind 1 here80; Serve; Start 0 true 0; Bind 2 local80; Serve]).
  assert (X : exists s0, run res init es = Some s0) by (eexists; vm_compute; reflexivity). destruct X as (s0 & H0).
  exists (es ++ [Start 1 true 0]). pose proof H0 as H1. vm_compute in H1. injection H1 as <-. eexists.
  assert (R : run res init (es ++ [Start 1 true 0]) = run res init (es ++ [Start 1 true 0])) by reflexivity. clear R.
  split; [vm_compute; reflexivity|]. split; [|split; [reflexivity|split; [reflexivity|split; [reflexivity|]]]].
  - unfold es. cbn [app].
    repeat (cbn [orderly]; split; [first [exact I|no_child|intros _ _; no_child]|];
      match goal with |- context [step res ?s ?e] => let r := eval vm_compute in (step res s e) in change (step res s e) with r; cbv beta iota end).
    exact I.
  - intros es' s' H'. refine (C116_failed res es _ 1 true 0 _ (Item 1 local80 2 Server (1, 80) Failed) es' s' H0 _ _ eq_refl eq_refl H').
    + vm_compute. reflexivity.
    + vm_compute. auto.
Qed.
Print Assumptions C116_bound_refuted.
(* a host that is not known *)
Theorem C116_unknown_host_refuted : exists s, run res init [Connect (Some 1) (Address (chars "nowhere") 80) true] = Some s /\ broken s = true /\ told s = [].
Proof. eexists. split; [vm_compute; reflexivity|]. auto. Qed.
Print Assumptions C116_unknown_host_refuted.
