(* Proofs about PortModel. *)
From Coq Require Import List Bool Arith Ascii String Decimal DecimalString DecimalNat Lia Permutation.
From Verif Require Import ActorPathModel PortModel.
Import ListNotations.

(* ---- names ---- *)
Lemma la_inj : forall a b, list_ascii_of_string a = list_ascii_of_string b -> a = b.
Proof. intros a b H. rewrite <- (string_of_list_ascii_of_string a), <- (string_of_list_ascii_of_string b), H. reflexivity. Qed.
Lemma decimal_inj : forall m n, decimal m = decimal n -> m = n.
Proof.
  intros m n H. apply la_inj in H. apply (f_equal NilEmpty.uint_of_string) in H.
  rewrite !NilEmpty.usu in H. injection H as H. now apply DecimalNat.Unsigned.to_uint_inj.
Qed.
Definition digit_char (c : ascii) : Prop := 48 <= nat_of_ascii c <= 57.
Lemma uint_digits : forall u, Forall digit_char (list_ascii_of_string (NilEmpty.string_of_uint u)).
Proof. induction u; cbn; constructor; auto; unfold digit_char; vm_compute; lia. Qed.
Lemma decimal_digits : forall n, Forall digit_char (decimal n).
Proof. intros n. apply uint_digits. Qed.
Lemma no_colon : forall l, Forall digit_char l -> ~ In colon l.
Proof. intros l F I. rewrite Forall_forall in F. specialize (F _ I). unfold digit_char in F. vm_compute in F. lia. Qed.
Lemma last_sep : forall (x : ascii) a b u v, ~ In x u -> ~ In x v -> a ++ x :: u = b ++ x :: v -> a = b /\ u = v.
Proof.
  induction a as [|c a IH]; intros b u v U V E.
  - destruct b as [|d b]; cbn in E.
    + injection E as E. auto.
    + injection E as E1 E2. subst u d. exfalso. apply U. apply in_or_app. right. now left.
  - destruct b as [|d b]; cbn in E; injection E as E1 E2.
    + subst v c. exfalso. apply V. apply in_or_app. right. now left.
    + subst d. destruct (IH _ _ _ U V E2) as [-> ->]. auto.
Qed.
Lemma to_string_inj : forall a b, to_string a = to_string b -> a = b.
Proof.
  intros [h p] [h' p'] E. unfold to_string in E. cbn in E.
  apply last_sep in E; [|apply no_colon, decimal_digits|apply no_colon, decimal_digits].
  destruct E as [-> E]. apply decimal_inj in E. now subst.
Qed.
Lemma digit_graph : forall c, digit_char c -> is_graph c && negb (is_slash c) = true.
Proof.
  intros c H. unfold is_graph, between, is_slash. unfold digit_char in H.
  apply andb_true_intro. split.
  - apply andb_true_intro. split; apply Nat.leb_le; lia.
  - destruct (Ascii.eqb_spec c slash); [|reflexivity]. subst. vm_compute in H. lia.
Qed.
Lemma valid_name : forall a, is_valid_actor_name (to_string a) = true <->
  Forall (fun c => 33 <= nat_of_ascii c <= 126 /\ c <> slash) (host a).
Proof.
  intros [h p]. unfold is_valid_actor_name, to_string. cbn [host port].
  replace (nonempty (h ++ colon :: decimal p)) with true by (destruct h; reflexivity).
  rewrite andb_true_l, forallb_app, andb_true_iff. cbn [forallb].
  assert (D : forallb (fun c => is_graph c && negb (is_slash c)) (decimal p) = true).
  { apply forallb_forall. intros c I. apply digit_graph. pose proof (decimal_digits p) as F. rewrite Forall_forall in F. auto. }
  rewrite D. change (is_graph colon && negb (is_slash colon)) with true. cbn [andb].
  rewrite forallb_forall, Forall_forall.
  assert (C : forall c, is_graph c && negb (is_slash c) = true <-> 33 <= nat_of_ascii c <= 126 /\ c <> slash).
  { intros c. unfold is_graph, between, is_slash. rewrite !andb_true_iff, !Nat.leb_le, negb_true_iff. rewrite Ascii.eqb_neq. tauto. }
  split.
  - intros [F _] c I. apply C. auto.
  - intros F. split; [|reflexivity]. intros c I. apply C. auto.
Qed.

(* ---- lists ---- *)
Lemma mem_in : forall n l, mem n l = true <-> In n l.
Proof.
  intros n l. unfold mem. rewrite existsb_exists. split.
  - intros (x & I & E). apply Nat.eqb_eq in E. now subst.
  - intros I. exists n. split; [exact I|apply Nat.eqb_refl].
Qed.
Lemma mem_out : forall n l, mem n l = false <-> ~ In n l.
Proof. intros n l. rewrite <- mem_in. destruct (mem n l); split; intros H; congruence. Qed.
Lemma str_eqb_eq : forall a b, str_eqb a b = true <-> a = b.
Proof. intros a b. unfold str_eqb. destruct (list_eq_dec ascii_dec a b); split; congruence. Qed.

Lemma get_in : forall n s k, get n s = Some k -> In k (socks s) /\ num k = n.
Proof. intros n s k H. apply find_some in H. destruct H as [I E]. apply Nat.eqb_eq in E. auto. Qed.
Lemma nodup_map_eq : forall (A B : Type) (f : A -> B) l a b, NoDup (map f l) -> In a l -> In b l -> f a = f b -> a = b.
Proof.
  induction l as [|x l IH]; cbn; intros a b N A1 B1 E; [easy|]. apply NoDup_cons_iff in N. destruct N as [N1 N2].
  destruct A1 as [->|A1], B1 as [->|B1]; auto.
  - exfalso. apply N1. rewrite E. now apply in_map.
  - exfalso. apply N1. rewrite <- E. now apply in_map.
Qed.
Lemma get_some : forall s k, NoDup (map num (socks s)) -> In k (socks s) -> get (num k) s = Some k.
Proof.
  intros s k N I. unfold get. destruct (find _ (socks s)) as [k'|] eqn:F.
  - apply find_some in F. destruct F as [I' E]. apply Nat.eqb_eq in E.
    f_equal. eapply nodup_map_eq; eauto.
  - exfalso. pose proof (find_none _ _ F _ I) as X. cbn in X. now rewrite Nat.eqb_refl in X.
Qed.

(* ---- the frame of an update ---- *)
Definition keeps (f : sock -> sock) : Prop := forall k, num (f k) = num k /\ asked (f k) = asked k /\ owner (f k) = owner k /\ lport (f k) = lport k.
Lemma keeps_ph : forall p, keeps (set_ph p). Proof. intros p k. cbn. auto. Qed.
Lemma keeps_waiting : forall w, keeps (set_waiting w). Proof. intros p k. cbn. auto. Qed.
Lemma keeps_if : forall (c : sock -> bool) f, (forall k, num (f k) = num k /\ asked (f k) = asked k /\ owner (f k) = owner k /\ lport (f k) = lport k) ->
  keeps (fun k => if c k then f k else k).
Proof. intros c f H k. destruct (c k); auto. Qed.
Lemma map_keeps : forall g, keeps g -> forall l, map num (map g l) = map num l /\ map lport (map g l) = map lport l /\ map asked (map g l) = map asked l.
Proof.
  intros g K l. rewrite !map_map. repeat split; apply map_ext; intros k; destruct (K k) as (A & B & C & D); auto.
Qed.

(* ---- ports ---- *)
Record ports_ok (s : state) : Prop := {
  p_num : NoDup (map num (socks s));
  p_next : forall k, In k (socks s) -> num k < next s;
  p_port : NoDup (map lport (socks s));
  p_zero : forall k, In k (socks s) -> lport k <> 0;
  p_others : forall k, In k (socks s) -> ~ In (lport k) (others s);
  p_asked : forall k, In k (socks s) -> port (asked k) <> 0 -> lport k = port (asked k)
}.
Lemma po_socks : forall s s', ports_ok s -> (exists g, keeps g /\ socks s' = map g (socks s)) -> next s' = next s -> others s' = others s -> ports_ok s'.
Proof.
  intros s s' P (g & K & E) N O. destruct (map_keeps g K (socks s)) as (M1 & M2 & M3).
  constructor; rewrite ?E, ?N, ?O, ?M1, ?M2; try apply P.
  - intros k I. apply in_map_iff in I. destruct I as (k0 & <- & I). destruct (K k0) as (A & B & C & D). rewrite A. now apply P.
  - intros k I. apply in_map_iff in I. destruct I as (k0 & <- & I). destruct (K k0) as (A & B & C & D). rewrite D. now apply P.
  - intros k I. apply in_map_iff in I. destruct I as (k0 & <- & I). destruct (K k0) as (A & B & C & D). rewrite D. now apply P.
  - intros k I. apply in_map_iff in I. destruct I as (k0 & <- & I). destruct (K k0) as (A & B & C & D). rewrite B, D. now apply P.
Qed.
Lemma po_same : forall s s', ports_ok s -> socks s' = socks s -> next s' = next s -> others s' = others s -> ports_ok s'.
Proof.
  intros s s' P E N O. apply (po_socks s s' P); auto. exists (fun k => k). split; [intros k; auto|]. now rewrite map_id.
Qed.
Lemma po_update : forall s n f, keeps f -> ports_ok s -> ports_ok (update n f s).
Proof.
  intros s n f K P. eapply po_socks; [exact P| |reflexivity|reflexivity].
  exists (fun k => if num k =? n then f k else k). split; [now apply keeps_if|reflexivity].
Qed.
Lemma po_tell : forall s h m, ports_ok s -> ports_ok (tell h m s).
Proof. intros s h m P. unfold tell. destruct (mem h (gone s)); auto. now apply (po_same s). Qed.
Lemma po_maybe : forall s, ports_ok s -> ports_ok (maybe_stop s).
Proof. intros s P. unfold maybe_stop. destruct (stopping s && none (kids s)); auto. now apply (po_same s). Qed.
Lemma acquire_some : forall a pick s p, acquire a pick s = Some p ->
  p <> 0 /\ ~ In p (used s) /\ (port a <> 0 -> p = port a).
Proof.
  intros a pick s p H. unfold acquire in H. destruct pick as [q|]; [|discriminate].
  destruct (((if port a =? 0 then q else port a) =? 0) || mem (if port a =? 0 then q else port a) (used s)) eqn:E; [discriminate|].
  injection H as <-. apply orb_false_iff in E. destruct E as [E1 E2]. apply Nat.eqb_neq in E1. apply mem_out in E2.
  split; [exact E1|]. split; [exact E2|]. intros Z. apply Nat.eqb_neq in Z. now rewrite Z.
Qed.
Lemma nodup_snoc : forall (A : Type) (l : list A) x, NoDup l -> ~ In x l -> NoDup (l ++ [x]).
Proof. intros A l x N I. apply (Permutation_NoDup (l := x :: l)); [apply Permutation_cons_append|now constructor]. Qed.

Section S.
Variable literal : str -> option ip.
Variable show : ip -> str.
Notation step := (step literal show).
Notation run := (run literal show).

Lemma po_bind : forall s h a pick, ports_ok s -> ports_ok (bind h a pick s).
Proof.
  intros s h a pick P. unfold bind. destruct (acquire a pick s) as [p|] eqn:A; [|exact P].
  destruct (is_valid_actor_name (to_string a)); [|exact P].
  apply po_tell. apply acquire_some in A. destruct A as (A1 & A2 & A3). unfold used in A2. rewrite in_app_iff in A2.
  constructor; cbn.
  - rewrite map_app. cbn. apply nodup_snoc; [apply P|]. intros I. apply in_map_iff in I. destruct I as (k & E & I).
    apply (p_next _ P) in I. lia.
  - intros k I. apply in_app_iff in I. destruct I as [I|[<-|[]]]; [|cbn; lia]. apply (p_next _ P) in I. lia.
  - rewrite map_app. cbn. apply nodup_snoc; [apply P|tauto].
  - intros k I. apply in_app_iff in I. destruct I as [I|[<-|[]]]; [now apply P|exact A1].
  - intros k I. apply in_app_iff in I. destruct I as [I|[<-|[]]]; [now apply P|cbn; tauto].
  - intros k I. apply in_app_iff in I. destruct I as [I|[<-|[]]]; [now apply P|cbn; exact A3].
Qed.
Lemma po_serve : forall s m, ports_ok s -> ports_ok (serve m s).
Proof.
  intros s m P. destruct m as [n|name]; cbn [serve].
  - destruct (stopping s); [apply po_update; [apply keeps_ph|exact P]|].
    destruct (get n s); [|exact P]. apply po_update; [apply keeps_ph|]. now apply (po_same s).
  - apply po_maybe. destruct (first_named name (kids s)); [|exact P]. apply po_update; [apply keeps_ph|]. now apply (po_same s).
Qed.
Lemma nodup_map_filter : forall (A B : Type) (f : A -> B) c l, NoDup (map f l) -> NoDup (map f (filter c l)).
Proof.
  induction l as [|x l IH]; cbn; intros N; [constructor|]. apply NoDup_cons_iff in N. destruct N as [N1 N2].
  destruct (c x); cbn; [|auto]. constructor; [|auto]. intros I. apply N1. apply in_map_iff in I. destruct I as (y & E & I).
  rewrite <- E. apply in_map. now apply filter_In in I.
Qed.
Lemma po_step : forall s e s', ports_ok s -> step s e = Some s' -> ports_ok s'.
Proof.
  intros s e s' P H. destruct e; cbn [PortModel.step] in H.
  - destruct (stopped s); [discriminate|]. injection H as <-. now apply po_bind.
  - destruct (notes s) as [|m t]; [discriminate|]. destruct (stopped s); [discriminate|]. injection H as <-.
    apply po_serve. now apply (po_same s).
  - destruct (notes s) as [|m t]; [discriminate|]. destruct (stopped s); [|discriminate]. injection H as <-.
    destruct m; [apply po_update; [apply keeps_ph|]|]; now apply (po_same s).
  - destruct (stopping s); [discriminate|]. injection H as <-. apply po_maybe. now apply (po_same s).
  - destruct (get n s) as [k|]; [|discriminate]. destruct (is_phase (ph k) Idle); [|discriminate]. injection H as <-.
    apply po_update; [apply keeps_ph|exact P].
  - destruct (get n s) as [k|]; [|discriminate]. destruct (is_phase (ph k) Active); [|discriminate]. injection H as <-.
    apply (po_same (update n (set_ph Ended) s)); auto. apply po_update; [apply keeps_ph|exact P].
  - destruct (get n s) as [k|]; [|discriminate]. destruct (is_phase (ph k) Leaving); [|discriminate]. injection H as <-.
    constructor; cbn; try (intros k0 I; apply filter_In in I; destruct I as [I _]; now apply P); apply nodup_map_filter, P.
  - injection H as <-. eapply po_socks; [exact P| |reflexivity|reflexivity].
    eexists. split; [|reflexivity]. intros k. destruct (lport k =? p); cbn; auto.
  - destruct (get n s) as [k|]; [|discriminate]. destruct (waiting k) as [|g w]; [discriminate|].
    destruct (receiving (ph k)); [|discriminate]. injection H as <-. apply po_tell, po_update; [apply keeps_waiting|exact P].
  - destruct (get n s) as [k|]; [|discriminate]. destruct (is_phase (ph k) Active); [|discriminate]. injection H as <-. now apply po_tell.
  - destruct (get n s) as [k|]; [|discriminate]. destruct (is_phase (ph k) Active); [|discriminate].
    destruct (literal (host a)); [|injection H as <-; exact P]. destruct ok; injection H as <-; [now apply (po_same s)|exact P].
  - injection H as <-. now apply (po_same s).
  - destruct ((p =? 0) || mem p (used s)) eqn:E; [discriminate|]. injection H as <-.
    apply orb_false_iff in E. destruct E as [_ E]. apply mem_out in E. unfold used in E. rewrite in_app_iff in E.
    constructor; cbn; try apply P. intros k I [->|J]; [|now apply (p_others _ P) in I].
    apply E. left. now apply in_map.
  - destruct (mem p (others s)); [|discriminate]. injection H as <-. constructor; cbn; try apply P.
    intros k I J. apply in_remove in J. destruct J as [J _]. now apply (p_others _ P) in I.
Qed.
Lemma po_run : forall es s s', ports_ok s -> run s es = Some s' -> ports_ok s'.
Proof.
  induction es as [|e es IH]; cbn; intros s s' P H; [congruence|]. destruct (step s e) as [s1|] eqn:E; [|discriminate].
  eapply IH; [|exact H]. eapply po_step; eauto.
Qed.
Lemma po_init : ports_ok init.
Proof. constructor; cbn; try constructor; easy. Qed.

(* ---- equal names ---- *)
Lemma same_name : forall s k1 k2, ports_ok s -> In k1 (socks s) -> In k2 (socks s) -> to_string (asked k1) = to_string (asked k2) ->
  k1 <> k2 -> asked k1 = asked k2 /\ port (asked k1) = 0.
Proof.
  intros s k1 k2 P I1 I2 E D. apply to_string_inj in E. split; [exact E|].
  destruct (Nat.eq_dec (port (asked k1)) 0) as [Z|Z]; [exact Z|]. exfalso. apply D.
  apply (nodup_map_eq _ _ lport (socks s)); [apply P| | |]; auto.
  rewrite (p_asked _ P k1 I1 Z). rewrite E in Z. rewrite (p_asked _ P k2 I2 Z). now rewrite E.
Qed.

(* ---- the children ---- *)
Definition attached (p : phase) : Prop := p = Idle \/ p = Active \/ p = Ended.
Record kids_ok (s : state) : Prop := {
  k_nz : forall k, In k (socks s) -> port (asked k) <> 0;
  k_kid : forall n m, In (n, m) (kids s) -> exists k, In k (socks s) /\ num k = n /\ m = to_string (asked k) /\ attached (ph k);
  k_all : forall k, In k (socks s) -> attached (ph k) -> In (num k, to_string (asked k)) (kids s);
  k_nodup : NoDup (map fst (kids s));
  k_notes : NoDup (notes s);
  k_made : forall n, In (Attach n) (notes s) <-> exists k, In k (socks s) /\ num k = n /\ ph k = Made;
  k_ended : forall m, stopped s = false -> (In (Detach m) (notes s) <-> exists k, In k (socks s) /\ m = to_string (asked k) /\ ph k = Ended);
  k_stopped : stopped s = true -> stopping s = true /\ kids s = [];
  k_waits : stopping s = true -> stopped s = false -> kids s <> []
}.
Definition view (k : sock) := (num k, asked k, ph k).
Lemma ko_view : forall s s', kids_ok s -> map view (socks s') = map view (socks s) -> kids s' = kids s -> notes s' = notes s ->
  stopping s' = stopping s -> stopped s' = stopped s -> kids_ok s'.
Proof.
  intros s s' K V E1 E2 E3 E4.
  assert (T : forall a b, map view (socks a) = map view (socks b) -> forall k, In k (socks a) -> exists k', In k' (socks b) /\ num k' = num k /\ asked k' = asked k /\ ph k' = ph k).
  { intros a b X k I. apply (in_map view) in I. rewrite X in I. apply in_map_iff in I. destruct I as (k' & E & I).
    unfold view in E. injection E as A B C. exists k'. auto. }
  pose proof (T s' s V) as T1. pose proof (T s s' (eq_sym V)) as T2. clear T.
  constructor; rewrite ?E1, ?E2, ?E3, ?E4; try apply K.
  - intros k I. destruct (T1 _ I) as (k' & I' & A & B & C). rewrite <- B. now apply K.
  - intros n m I. destruct (k_kid _ K _ _ I) as (k & I' & A & B & C). destruct (T2 _ I') as (k' & I2 & A' & B' & C').
    exists k'. rewrite B', C', A'. auto.
  - intros k I A. destruct (T1 _ I) as (k' & I' & A1 & B1 & C1). rewrite <- A1, <- B1. rewrite <- C1 in A. now apply K.
  - intros n. rewrite (k_made _ K). split; intros (k & I & A & B).
    + destruct (T2 _ I) as (k' & I2 & A' & B' & C'). exists k'. rewrite A', C'. auto.
    + destruct (T1 _ I) as (k' & I2 & A' & B' & C'). exists k'. rewrite A', C'. auto.
  - intros m U. rewrite (k_ended _ K m U). split; intros (k & I & A & B).
    + destruct (T2 _ I) as (k' & I2 & A' & B' & C'). exists k'. rewrite B', C'. auto.
    + destruct (T1 _ I) as (k' & I2 & A' & B' & C'). exists k'. rewrite B', C'. auto.
Qed.
Lemma ko_same : forall s s', kids_ok s -> socks s' = socks s -> kids s' = kids s -> notes s' = notes s ->
  stopping s' = stopping s -> stopped s' = stopped s -> kids_ok s'.
Proof. intros s s' K E. apply ko_view; [exact K|now rewrite E]. Qed.
Lemma ko_tell : forall s h m, kids_ok s -> kids_ok (tell h m s).
Proof. intros s h m K. unfold tell. destruct (mem h (gone s)); auto. now apply (ko_same s). Qed.
(* the sockets after a change of the phase of one of them *)
Lemma in_chg : forall n p s k', In k' (socks (update n (set_ph p) s)) <->
  (exists k, In k (socks s) /\ num k = n /\ k' = set_ph p k) \/ (In k' (socks s) /\ num k' <> n).
Proof.
  intros n p s k'. unfold update. cbn. rewrite in_map_iff. split.
  - intros (k & E & I). destruct (Nat.eqb_spec (num k) n) as [N|N]; [left; exists k; auto|right; subst; auto].
  - intros [(k & I & N & E)|[I N]].
    + exists k. rewrite N, Nat.eqb_refl. auto.
    + exists k'. apply Nat.eqb_neq in N. rewrite N. auto.
Qed.
Lemma num_eq : forall s a b, ports_ok s -> In a (socks s) -> In b (socks s) -> num a = num b -> a = b.
Proof. intros s a b P. apply nodup_map_eq, P. Qed.
Lemma name_eq : forall s a b, ports_ok s -> kids_ok s -> In a (socks s) -> In b (socks s) -> to_string (asked a) = to_string (asked b) -> a = b.
Proof.
  intros s a b P K Ia Ib E. apply to_string_inj in E.
  apply (nodup_map_eq _ _ lport (socks s)); [apply P| | |]; auto.
  rewrite (p_asked _ P a Ia (k_nz _ K a Ia)), (p_asked _ P b Ib (k_nz _ K b Ib)). now rewrite E.
Qed.
Lemma first_named_some : forall name l n, first_named name l = Some n -> In (n, name) l.
Proof.
  induction l as [|[n' m] l IH]; cbn; intros n H; [discriminate|].
  destruct (str_eqb m name) eqn:E; [|right; auto]. apply str_eqb_eq in E. injection H as <-. subst. now left.
Qed.
Lemma first_named_none : forall name l, first_named name l = None -> forall n, ~ In (n, name) l.
Proof.
  induction l as [|[n' m] l IH]; cbn; intros H n; [auto|]. destruct (str_eqb m name) eqn:E; [discriminate|].
  intros [X|X]; [|now apply (IH H n)]. injection X as -> ->. assert (str_eqb name name = true) by now apply str_eqb_eq. congruence.
Qed.
Lemma drop_first_in : forall name l x, In x (drop_first name l) -> In x l.
Proof.
  induction l as [|[n m] l IH]; cbn; intros x I; [auto|]. destruct (str_eqb m name); [auto|]. destruct I as [I|I]; auto.
Qed.
Lemma drop_first_other : forall name l n m, In (n, m) l -> m <> name -> In (n, m) (drop_first name l).
Proof.
  induction l as [|[n' m'] l IH]; cbn; intros n m I D; [auto|]. destruct (str_eqb m' name) eqn:E.
  - apply str_eqb_eq in E. destruct I as [I|I]; [congruence|auto].
  - destruct I as [I|I]; [now left|right; auto].
Qed.
Lemma drop_first_nodup : forall name l, NoDup (map fst l) -> NoDup (map fst (drop_first name l)).
Proof.
  induction l as [|[n m] l IH]; cbn; intros N; [constructor|]. apply NoDup_cons_iff in N. destruct N as [N1 N2].
  destruct (str_eqb m name); [exact N2|]. cbn. constructor; [|auto]. intros I. apply N1. apply in_map_iff in I.
  destruct I as (x & E & I). rewrite <- E. apply in_map. eapply drop_first_in; eauto.
Qed.
Lemma drop_first_gone : forall name l n, first_named name l = Some n -> NoDup (map fst l) -> ~ In n (map fst (drop_first name l)).
Proof.
  induction l as [|[n' m] l IH]; cbn; intros n H N; [discriminate|]. apply NoDup_cons_iff in N. destruct N as [N1 N2].
  destruct (str_eqb m name) eqn:E.
  - injection H as <-. exact N1.
  - cbn. intros [X|X]; [|now apply (IH n)]. subst n'. apply N1. apply first_named_some in H. apply in_map_iff. now exists (n, name).
Qed.
Definition asks (e : event) : Prop := match e with Bind _ a _ => port a <> 0 | _ => True end.

Lemma ko_init : kids_ok init.
Proof.
  constructor; cbn.
  - easy.
  - easy.
  - easy.
  - constructor.
  - constructor.
  - intros n. split; [easy|]. now intros (k & [] & _).
  - intros m _. split; [easy|]. now intros (k & [] & _).
  - easy.
  - easy.
Qed.
Lemma ko_bind : forall s h a pick, ports_ok s -> kids_ok s -> stopped s = false -> port a <> 0 -> kids_ok (bind h a pick s).
Proof.
  intros s h a pick P K U Z. unfold bind. destruct (acquire a pick s) as [p|] eqn:A; [|exact K].
  destruct (is_valid_actor_name (to_string a)); [|exact K]. apply ko_tell.
  assert (F : forall k, In k (socks s) -> num k <> next s) by (intros k I; apply (p_next _ P) in I; lia).
  constructor; cbn.
  - intros k I. apply in_app_iff in I. destruct I as [I|[<-|[]]]; [now apply K|exact Z].
  - intros n m I. destruct (k_kid _ K _ _ I) as (k & I' & X). exists k. rewrite in_app_iff. auto.
  - intros k I B. apply in_app_iff in I. destruct I as [I|[<-|[]]]; [now apply K|]. destruct B as [B|[B|B]]; discriminate.
  - apply K.
  - apply nodup_snoc; [apply K|]. intros I. apply (k_made _ K) in I. destruct I as (k & I & N & _). now apply (F k).
  - intros n. rewrite in_app_iff. rewrite (k_made _ K). cbn. split.
    + intros [(k & I & X)|[X|[]]]; [exists k; rewrite in_app_iff; auto|]. injection X as <-.
      eexists. rewrite in_app_iff. split; [right; now left|auto].
    + intros (k & I & N & M). apply in_app_iff in I. destruct I as [I|[<-|[]]]; [left; exists k; auto|right; left; now rewrite <- N].
  - intros m _. rewrite in_app_iff. rewrite (k_ended _ K m U). split.
    + intros [(k & I & X)|[X|[]]]; [exists k; rewrite in_app_iff; auto|discriminate].
    + intros (k & I & N & M). apply in_app_iff in I. destruct I as [I|[<-|[]]]; [left; exists k; auto|discriminate].
  - apply K.
  - apply K.
Qed.
Lemma nodup_cons_out : forall (A : Type) (x : A) l, NoDup (x :: l) -> ~ In x l /\ NoDup l.
Proof. intros A x l N. now apply NoDup_cons_iff. Qed.

Lemma ko_leave : forall s n t, ports_ok s -> kids_ok s -> notes s = Attach n :: t -> kids_ok (update n (set_ph Leaving) (with_notes t s)).
Proof.
  intros s n t P K E. pose proof (k_notes _ K) as N. rewrite E in N. apply nodup_cons_out in N. destruct N as [N1 N2].
  assert (M : exists k, In k (socks s) /\ num k = n /\ ph k = Made) by (apply (k_made _ K); rewrite E; now left).
  destruct M as (k & I & Nk & Mk).
  assert (Q : forall k', In k' (socks s) -> num k' = n -> k' = k) by (intros k' I' N'; apply (num_eq s); congruence).
  constructor; cbn [kids notes stopping stopped update with_socks with_notes].
  - intros k' I'. apply in_chg in I'. destruct I' as [(k0 & I0 & _ & ->)|[I' _]]; [cbn; now apply K|now apply K].
  - intros m x J. destruct (k_kid _ K _ _ J) as (k' & I' & A & B & C). exists k'.
    split; [|auto]. apply in_chg. right. split; [exact I'|]. intros X. rewrite (Q _ I' X), Mk in C. destruct C as [C|[C|C]]; discriminate.
  - intros k' I' B. apply in_chg in I'. destruct I' as [(k0 & I0 & _ & ->)|[I' _]]; [destruct B as [B|[B|B]]; discriminate|now apply K].
  - apply K.
  - exact N2.
  - intros m. split.
    + intros J. assert (J' : In (Attach m) (notes s)) by (rewrite E; now right). apply (k_made _ K) in J'.
      destruct J' as (k' & I' & A & B). exists k'. split; [|auto]. apply in_chg. right. split; [exact I'|]. intros X. apply N1. congruence.
    + intros (k' & I' & A & B). apply in_chg in I'. destruct I' as [(k0 & I0 & _ & ->)|[I' D]]; [discriminate|].
      assert (J : In (Attach m) (notes s)) by (apply (k_made _ K); exists k'; auto). rewrite E in J. destruct J as [J|J]; [|exact J].
      exfalso. apply D. congruence.
  - intros m U. transitivity (In (Detach m) (notes s)).
    + rewrite E. cbn. split; [auto|]. intros [X|X]; [discriminate|exact X].
    + rewrite (k_ended _ K m U). split; intros (k' & I' & A & B).
      * exists k'. split; [|auto]. apply in_chg. right. split; [exact I'|]. intros X. rewrite (Q _ I' X) in B. congruence.
      * apply in_chg in I'. destruct I' as [(k0 & I0 & _ & ->)|[I' D]]; [discriminate|]. exists k'. auto.
  - apply K.
  - apply K.
Qed.
Lemma ko_attach : forall s n t k0, ports_ok s -> kids_ok s -> notes s = Attach n :: t -> stopping s = false -> get n s = Some k0 ->
  kids_ok (update n (set_ph Idle) (with_kids (kids s ++ [(n, to_string (asked k0))]) (with_notes t s))).
Proof.
  intros s n t k P K E ST G. pose proof (k_notes _ K) as N. rewrite E in N. apply nodup_cons_out in N. destruct N as [N1 N2].
  apply get_in in G. destruct G as [I Nk].
  assert (Q : forall k', In k' (socks s) -> num k' = n -> k' = k) by (intros k' I' N'; apply (num_eq s); congruence).
  assert (Mk : ph k = Made).
  { assert (M : exists k, In k (socks s) /\ num k = n /\ ph k = Made) by (apply (k_made _ K); rewrite E; now left).
    destruct M as (k' & I' & N' & M'). rewrite <- (Q k' I' N'). exact M'. }
  constructor; cbn [kids notes stopping stopped update with_socks with_notes with_kids].
  - intros k' I'. apply in_chg in I'. destruct I' as [(k0 & I0 & _ & ->)|[I' _]]; [cbn; now apply K|now apply K].
  - intros m x J. apply in_app_iff in J. destruct J as [J|[J|[]]].
    + destruct (k_kid _ K _ _ J) as (k' & I' & A & B & C). exists k'.
      split; [|auto]. apply in_chg. right. split; [exact I'|]. intros X. rewrite (Q _ I' X), Mk in C. destruct C as [C|[C|C]]; discriminate.
    + injection J as <- <-. exists (set_ph Idle k). split; [apply in_chg; left; exists k; auto|]. cbn. unfold attached. auto.
  - intros k' I' B. apply in_app_iff. apply in_chg in I'. destruct I' as [(k0 & I0 & A & ->)|[I' _]].
    + right. left. rewrite (Q k0 I0 A). cbn. congruence.
    + left. now apply K.
  - rewrite map_app. cbn. apply nodup_snoc; [apply K|]. intros J. apply in_map_iff in J. destruct J as ([m x] & A & J). cbn in A. subst m.
    destruct (k_kid _ K _ _ J) as (k' & I' & A & B & C). rewrite (Q _ I' A), Mk in C. destruct C as [C|[C|C]]; discriminate.
  - exact N2.
  - intros m. split.
    + intros J. assert (J' : In (Attach m) (notes s)) by (rewrite E; now right). apply (k_made _ K) in J'.
      destruct J' as (k' & I' & A & B). exists k'. split; [|auto]. apply in_chg. right. split; [exact I'|]. intros X. apply N1. congruence.
    + intros (k' & I' & A & B). apply in_chg in I'. destruct I' as [(k0 & I0 & _ & ->)|[I' D]]; [discriminate|].
      assert (J : In (Attach m) (notes s)) by (apply (k_made _ K); exists k'; auto). rewrite E in J. destruct J as [J|J]; [|exact J].
      exfalso. apply D. congruence.
  - intros m U. transitivity (In (Detach m) (notes s)).
    + rewrite E. cbn. split; [auto|]. intros [X|X]; [discriminate|exact X].
    + rewrite (k_ended _ K m U). split; intros (k' & I' & A & B).
      * exists k'. split; [|auto]. apply in_chg. right. split; [exact I'|]. intros X. rewrite (Q _ I' X) in B. congruence.
      * apply in_chg in I'. destruct I' as [(k0 & I0 & _ & ->)|[I' D]]; [discriminate|]. exists k'. auto.
  - intros U. destruct (k_stopped _ K U) as [X _]. congruence.
  - congruence.
Qed.
(* with ports asked for, the report of a child that ended removes that child *)
Lemma detach_own : forall s m t, ports_ok s -> kids_ok s -> stopped s = false -> notes s = Detach m :: t ->
  exists k, In k (socks s) /\ m = to_string (asked k) /\ ph k = Ended /\ first_named m (kids s) = Some (num k).
Proof.
  intros s m t P K U E. assert (J : In (Detach m) (notes s)) by (rewrite E; now left). apply (k_ended _ K m U) in J.
  destruct J as (k & I & A & B). exists k. split; [exact I|]. split; [exact A|]. split; [exact B|].
  destruct (first_named m (kids s)) as [n|] eqn:F.
  - apply first_named_some in F. apply (k_kid _ K) in F. destruct F as (k' & I' & N' & A' & _).
    rewrite (name_eq s k k' P K I I'); congruence.
  - exfalso. apply (first_named_none _ _ F (num k)). rewrite A. apply K; [exact I|]. unfold attached. auto.
Qed.
Lemma ko_detach : forall s m t, ports_ok s -> kids_ok s -> stopped s = false -> notes s = Detach m :: t ->
  kids_ok (serve (Detach m) (with_notes t s)).
Proof.
  intros s m t P K U E. destruct (detach_own s m t P K U E) as (k & I & A & B & F).
  pose proof (k_notes _ K) as N. rewrite E in N. apply nodup_cons_out in N. destruct N as [N1 N2].
  assert (Q : forall k', In k' (socks s) -> num k' = num k -> k' = k) by (intros k' I' N'; apply (num_eq s); congruence).
  assert (QN : forall k', In k' (socks s) -> to_string (asked k') = m -> k' = k) by (intros k' I' N'; apply (name_eq s); congruence).
  cbn [serve]. change (kids (with_notes t s)) with (kids s). rewrite F.
  set (s1 := update (num k) (set_ph Leaving) (with_kids (drop_first m (kids s)) (with_notes t s))).
  assert (KK : forall n x, In (n, x) (drop_first m (kids s)) <-> In (n, x) (kids s) /\ n <> num k).
  { intros n x. split.
    - intros J. split; [eapply drop_first_in; eauto|]. intros ->. apply (drop_first_gone m (kids s) (num k) F (k_nodup _ K)).
      apply in_map_iff. now exists (num k, x).
    - intros [J D]. apply drop_first_other; [exact J|]. intros ->. destruct (k_kid _ K _ _ J) as (k' & I' & A' & B' & _).
      apply D. rewrite <- A'. f_equal. apply QN; congruence. }
  assert (W : forall a b, (stopped (with_stops a b s1) = true -> a = true /\ kids s1 = []) -> (a = true -> b = false -> kids s1 <> []) -> kids_ok (with_stops a b s1)).
  { intros a b W1 W2. constructor; cbn [kids notes stopping stopped update with_socks with_notes with_kids with_stops s1].
    - intros k' I'. apply in_chg in I'. destruct I' as [(k0 & I0 & _ & ->)|[I' _]]; [cbn; now apply K|now apply K].
    - intros n x J. apply KK in J. destruct J as [J D]. destruct (k_kid _ K _ _ J) as (k' & I' & A' & B' & C').
      exists k'. split; [|auto]. apply in_chg. right. split; [exact I'|congruence].
    - intros k' I' X. apply in_chg in I'. destruct I' as [(k0 & I0 & A' & ->)|[I' D]]; [destruct X as [X|[X|X]]; discriminate|].
      apply KK. split; [now apply K|exact D].
    - apply drop_first_nodup, K.
    - exact N2.
    - intros n. transitivity (In (Attach n) (notes s)).
      + rewrite E. cbn. split; [auto|]. intros [X|X]; [discriminate|exact X].
      + rewrite (k_made _ K). split; intros (k' & I' & A' & B').
        * exists k'. split; [|auto]. apply in_chg. right. split; [exact I'|]. intros X. rewrite (Q _ I' X) in B'. congruence.
        * apply in_chg in I'. destruct I' as [(k0 & I0 & _ & ->)|[I' D]]; [discriminate|]. exists k'. auto.
    - intros x _. split.
      + intros J. assert (J' : In (Detach x) (notes s)) by (rewrite E; now right). apply (k_ended _ K x U) in J'.
        destruct J' as (k' & I' & A' & B'). exists k'. split; [|auto]. apply in_chg. right. split; [exact I'|]. intros X.
        rewrite (Q _ I' X) in A'. congruence.
      + intros (k' & I' & A' & B'). apply in_chg in I'. destruct I' as [(k0 & I0 & _ & ->)|[I' D]]; [discriminate|].
        assert (J : In (Detach x) (notes s)) by (apply (k_ended _ K x U); exists k'; auto). rewrite E in J. destruct J as [J|J]; [|exact J].
        exfalso. apply D. f_equal. apply QN; [exact I'|congruence].
    - exact W1.
    - exact W2. }
  assert (S1 : s1 = with_stops (stopping s) false s1).
  { transitivity (with_stops (stopping s) (stopped s) s1); [reflexivity|now rewrite U]. }
  unfold maybe_stop. destruct (stopping s1 && none (kids s1)) eqn:M.
  - apply andb_true_iff in M. destruct M as [M1 M2]. apply W; [|discriminate]. intros _. split; [reflexivity|].
    destruct (kids s1); [reflexivity|discriminate].
  - rewrite S1. apply W; [discriminate|]. intros X _ Y. rewrite Y in M. change (stopping s1) with (stopping s) in M. rewrite X in M. discriminate.
Qed.
Lemma ko_phase : forall s n p q, ports_ok s -> kids_ok s -> get n s = Some p -> attached (ph p) -> attached q -> q <> Ended -> ph p <> Ended ->
  kids_ok (update n (set_ph q) s).
Proof.
  intros s n k q P K G B C D1 D2. apply get_in in G. destruct G as [I Nk].
  assert (Q : forall k', In k' (socks s) -> num k' = n -> k' = k) by (intros k' I' N'; apply (num_eq s); congruence).
  constructor; cbn [kids notes stopping stopped update with_socks]; try apply K.
  - intros k' I'. apply in_chg in I'. destruct I' as [(k0 & I0 & _ & ->)|[I' _]]; [cbn; now apply K|now apply K].
  - intros m x J. destruct (k_kid _ K _ _ J) as (k' & I' & A' & B' & C'). destruct (Nat.eq_dec m n) as [->|X].
    + exists (set_ph q k'). split; [apply in_chg; left; exists k'; auto|]. cbn. auto.
    + exists k'. split; [|auto]. apply in_chg. right. split; [exact I'|congruence].
  - intros k' I' X. apply in_chg in I'. destruct I' as [(k0 & I0 & A' & ->)|[I' _]].
    + cbn. apply K; [exact I0|]. now rewrite (Q k0 I0 A').
    + now apply K.
  - intros m. rewrite (k_made _ K). split; intros (k' & I' & A' & B').
    + exists k'. split; [|auto]. apply in_chg. right. split; [exact I'|]. intros X. rewrite (Q _ I' X) in B'. rewrite B' in B. destruct B as [B|[B|B]]; discriminate.
    + apply in_chg in I'. destruct I' as [(k0 & I0 & _ & ->)|[I' D]]; [cbn in B'; rewrite B' in C; destruct C as [C|[C|C]]; discriminate|]. exists k'. auto.
  - intros m U. rewrite (k_ended _ K m U). split; intros (k' & I' & A' & B').
    + exists k'. split; [|auto]. apply in_chg. right. split; [exact I'|]. intros X. rewrite (Q _ I' X) in B'. congruence.
    + apply in_chg in I'. destruct I' as [(k0 & I0 & _ & ->)|[I' D]]; [cbn in B'; congruence|]. exists k'. auto.
Qed.
Lemma ko_end : forall s n k, ports_ok s -> kids_ok s -> get n s = Some k -> ph k = Active ->
  kids_ok (with_notes (notes s ++ [Detach (to_string (asked k))]) (update n (set_ph Ended) s)).
Proof.
  intros s n k P K G B. apply get_in in G. destruct G as [I Nk].
  assert (Q : forall k', In k' (socks s) -> num k' = n -> k' = k) by (intros k' I' N'; apply (num_eq s); congruence).
  assert (U : stopped s = false).
  { destruct (stopped s) eqn:U; [|reflexivity]. destruct (k_stopped _ K U) as [_ X].
    assert (J : In (num k, to_string (asked k)) (kids s)) by (apply K; unfold attached; auto). rewrite X in J. destruct J. }
  constructor; cbn [kids notes stopping stopped update with_socks with_notes]; try apply K.
  - intros k' I'. apply in_chg in I'. destruct I' as [(k0 & I0 & _ & ->)|[I' _]]; [cbn; now apply K|now apply K].
  - intros m x J. destruct (k_kid _ K _ _ J) as (k' & I' & A' & B' & C'). destruct (Nat.eq_dec m n) as [->|X].
    + exists (set_ph Ended k'). split; [apply in_chg; left; exists k'; auto|]. cbn. unfold attached. auto.
    + exists k'. split; [|auto]. apply in_chg. right. split; [exact I'|congruence].
  - intros k' I' X. apply in_chg in I'. destruct I' as [(k0 & I0 & A' & ->)|[I' _]].
    + cbn. apply K; [exact I0|]. rewrite (Q k0 I0 A'). unfold attached. auto.
    + now apply K.
  - apply nodup_snoc; [apply K|]. intros J. apply (k_ended _ K _ U) in J. destruct J as (k' & I' & A' & B').
    rewrite (name_eq s k k' P K I I' A') in B. congruence.
  - intros m. rewrite in_app_iff. cbn. rewrite (k_made _ K). split.
    + intros [(k' & I' & A' & B')|[X|[]]]; [|discriminate].
      exists k'. split; [|auto]. apply in_chg. right. split; [exact I'|]. intros X. rewrite (Q _ I' X) in B'. congruence.
    + intros (k' & I' & A' & B'). apply in_chg in I'. destruct I' as [(k0 & I0 & _ & ->)|[I' D]]; [discriminate|]. left. exists k'. auto.
  - intros m _. rewrite in_app_iff. cbn. rewrite (k_ended _ K m U). split.
    + intros [(k' & I' & A' & B')|[X|[]]].
      * exists k'. split; [|auto]. apply in_chg. right. split; [exact I'|]. intros X. rewrite (Q _ I' X) in B'. congruence.
      * injection X as <-. exists (set_ph Ended k). split; [apply in_chg; left; exists k; auto|]. cbn. auto.
    + intros (k' & I' & A' & B'). apply in_chg in I'. destruct I' as [(k0 & I0 & N0 & ->)|[I' D]].
      * right. left. rewrite A'. cbn. now rewrite (Q k0 I0 N0).
      * left. exists k'. auto.
Qed.
Lemma ko_close : forall s n k, ports_ok s -> kids_ok s -> get n s = Some k -> ph k = Leaving ->
  kids_ok (with_socks (filter (fun k => negb (num k =? n)) (socks s)) s).
Proof.
  intros s n k P K G B. apply get_in in G. destruct G as [I Nk].
  assert (Q : forall k', In k' (socks s) -> num k' = n -> k' = k) by (intros k' I' N'; apply (num_eq s); congruence).
  assert (FI : forall k', In k' (filter (fun k => negb (num k =? n)) (socks s)) <-> In k' (socks s) /\ num k' <> n).
  { intros k'. rewrite filter_In, negb_true_iff, Nat.eqb_neq. tauto. }
  constructor; cbn [kids notes stopping stopped socks with_socks]; try apply K.
  - intros k' I'. apply FI in I'. now apply K.
  - intros m x J. destruct (k_kid _ K _ _ J) as (k' & I' & A' & B' & C'). exists k'. rewrite FI. split; [|auto]. split; [exact I'|].
    intros X. rewrite (Q _ I' X), B in C'. destruct C' as [C'|[C'|C']]; discriminate.
  - intros k' I'. apply FI in I'. now apply K.
  - intros m. rewrite (k_made _ K). split; intros (k' & I' & A' & B').
    + exists k'. rewrite FI. split; [|auto]. split; [exact I'|]. intros X. rewrite (Q _ I' X) in B'. congruence.
    + apply FI in I'. exists k'. tauto.
  - intros m U. rewrite (k_ended _ K m U). split; intros (k' & I' & A' & B').
    + exists k'. rewrite FI. split; [|auto]. split; [exact I'|]. intros X. rewrite (Q _ I' X) in B'. congruence.
    + apply FI in I'. exists k'. tauto.
Qed.
Lemma is_phase_eq : forall p q, is_phase p q = true <-> p = q.
Proof. destruct p, q; cbn; split; congruence. Qed.
Lemma ko_step : forall s e s', ports_ok s -> kids_ok s -> asks e -> step s e = Some s' -> kids_ok s'.
Proof.
  intros s e s' P K Z H. destruct e; cbn [PortModel.step] in H.
  - destruct (stopped s) eqn:U; [discriminate|]. injection H as <-. now apply ko_bind.
  - destruct (notes s) as [|m t] eqn:E; [discriminate|]. destruct (stopped s) eqn:U; [discriminate|]. injection H as <-.
    destruct m as [n|m]; [|now apply ko_detach].
    cbn [serve]. change (stopping (with_notes t s)) with (stopping s). destruct (stopping s) eqn:ST; [now apply ko_leave|].
    change (get n (with_notes t s)) with (get n s). destruct (get n s) as [k|] eqn:G; [exact (ko_attach s n t k P K E ST G)|].
    exfalso. assert (J : In (Attach n) (notes s)) by (rewrite E; now left). apply (k_made _ K) in J. destruct J as (k & I & N & _).
    rewrite <- N, (get_some s k (p_num _ P) I) in G. discriminate.
  - destruct (notes s) as [|m t] eqn:E; [discriminate|]. destruct (stopped s) eqn:U; [|discriminate]. injection H as <-.
    destruct m as [n|m]; [now apply ko_leave|].
    pose proof (k_notes _ K) as N. rewrite E in N. apply nodup_cons_out in N. destruct N as [N1 N2].
    constructor; cbn [kids notes stopping stopped socks with_notes]; try apply K; [exact N2| |congruence].
    intros n. rewrite <- (k_made _ K), E. cbn. split; [auto|]. intros [X|X]; [discriminate|exact X].
  - destruct (stopping s) eqn:ST; [discriminate|]. injection H as <-.
    assert (U : stopped s = false) by (destruct (stopped s) eqn:U; [destruct (k_stopped _ K U); congruence|reflexivity]).
    unfold maybe_stop. cbn. destruct (kids s) eqn:E; cbn.
    + constructor; cbn.
      * apply K.
      * rewrite E. intros n m [].
      * intros k I A. now apply (k_all _ K).
      * apply K.
      * apply K.
      * apply K.
      * discriminate.
      * auto.
      * discriminate.
    + constructor; cbn.
      * apply K.
      * apply K.
      * apply K.
      * apply K.
      * apply K.
      * apply K.
      * intros m _. apply (k_ended _ K m U).
      * discriminate.
      * intros _ _ X. congruence.
  - destruct (get n s) as [k|] eqn:G; [|discriminate]. destruct (is_phase (ph k) Idle) eqn:A; [|discriminate]. injection H as <-.
    apply is_phase_eq in A. apply (ko_phase s n k); auto; unfold attached; auto; congruence.
  - destruct (get n s) as [k|] eqn:G; [|discriminate]. destruct (is_phase (ph k) Active) eqn:A; [|discriminate]. injection H as <-.
    apply is_phase_eq in A. now apply ko_end.
  - destruct (get n s) as [k|] eqn:G; [|discriminate]. destruct (is_phase (ph k) Leaving) eqn:A; [|discriminate]. injection H as <-.
    apply is_phase_eq in A. eapply ko_close; eauto.
  - injection H as <-. apply (ko_view s); auto. cbn. rewrite map_map. apply map_ext. intros k. destruct (lport k =? p); reflexivity.
  - destruct (get n s) as [k|]; [|discriminate]. destruct (waiting k) as [|g w]; [discriminate|].
    destruct (receiving (ph k)); [|discriminate]. injection H as <-. apply ko_tell.
    apply (ko_view s); auto. cbn. rewrite map_map. apply map_ext. intros k'. destruct (num k' =? n); reflexivity.
  - destruct (get n s) as [k|]; [|discriminate]. destruct (is_phase (ph k) Active); [|discriminate]. injection H as <-. now apply ko_tell.
  - destruct (get n s) as [k|]; [|discriminate]. destruct (is_phase (ph k) Active); [|discriminate].
    destruct (literal (host a)); [|injection H as <-; exact K]. destruct ok; injection H as <-; [now apply (ko_same s)|exact K].
  - injection H as <-. now apply (ko_same s).
  - destruct ((p =? 0) || mem p (used s)); [discriminate|]. injection H as <-. now apply (ko_same s).
  - destruct (mem p (others s)); [|discriminate]. injection H as <-. now apply (ko_same s).
Qed.
Lemma ok_run : forall es s s', ports_ok s -> kids_ok s -> Forall asks es -> run s es = Some s' -> ports_ok s' /\ kids_ok s'.
Proof.
  induction es as [|e es IH]; cbn; intros s s' P K F H; [injection H as <-; auto|]. destruct (step s e) as [s1|] eqn:E; [|discriminate].
  inversion F as [|? ? F1 F2]; subst. eapply IH; [| |exact F2|exact H]; [eapply po_step|eapply ko_step]; eauto.
Qed.

(* ---- an active socket stays ---- *)
Definition same_sock (k k' : sock) : Prop := num k' = num k /\ asked k' = asked k /\ owner k' = owner k /\ lport k' = lport k.
Lemma stays_map : forall g l k, keeps g -> In k l -> exists k', In k' (map g l) /\ same_sock k k' /\ k' = g k.
Proof. intros g l k K I. exists (g k). split; [now apply in_map|]. split; [exact (K k)|reflexivity]. Qed.
Lemma stays_chg : forall n p s k, In k (socks s) -> num k <> n -> In k (socks (update n (set_ph p) s)).
Proof. intros n p s k I D. apply in_chg. auto. Qed.
Lemma same_refl : forall k, same_sock k k. Proof. intros k. unfold same_sock. auto. Qed.
Lemma socks_tell : forall h m s, socks (tell h m s) = socks s.
Proof. intros h m s. unfold tell. destruct (mem h (gone s)); reflexivity. Qed.
Lemma socks_maybe : forall s, socks (maybe_stop s) = socks s.
Proof. intros s. unfold maybe_stop. destruct (stopping s && none (kids s)); reflexivity. Qed.
Lemma active_step : forall s e s' k, ports_ok s -> kids_ok s -> step s e = Some s' -> In k (socks s) -> ph k = Active ->
  exists k', In k' (socks s') /\ same_sock k k' /\ (ph k' = Active \/ (e = Stop (num k) /\ ph k' = Ended)).
Proof.
  intros s e s' k P K H I A.
  assert (ID : forall s2, socks s2 = socks s -> exists k', In k' (socks s2) /\ same_sock k k' /\ (ph k' = Active \/ (e = Stop (num k) /\ ph k' = Ended))).
  { intros s2 E. exists k. rewrite E. split; [exact I|]. split; [apply same_refl|auto]. }
  assert (CH : forall n p k0, In k0 (socks s) -> num k0 = n -> ph k0 <> Active -> forall s2, socks s2 = socks (update n (set_ph p) s) ->
    exists k', In k' (socks s2) /\ same_sock k k' /\ (ph k' = Active \/ (e = Stop (num k) /\ ph k' = Ended))).
  { intros n p k0 I0 N0 D s2 E. exists k. rewrite E. split; [|split; [apply same_refl|auto]]. apply stays_chg; [exact I|].
    intros X. apply D. rewrite <- A. f_equal. apply (num_eq s); auto; congruence. }
  destruct e; cbn [PortModel.step] in H.
  - destruct (stopped s) eqn:U; [discriminate|]. injection H as <-. unfold bind. destruct (acquire a pick s); [|now apply ID].
    destruct (is_valid_actor_name (to_string a)); [|now apply ID]. rewrite socks_tell. cbn. exists k. rewrite in_app_iff.
    split; [auto|]. split; [apply same_refl|auto].
  - destruct (notes s) as [|m t] eqn:E; [discriminate|]. destruct (stopped s) eqn:U; [discriminate|]. injection H as <-.
    destruct m as [n|m].
    + assert (J : In (Attach n) (notes s)) by (rewrite E; now left). apply (k_made _ K) in J. destruct J as (k0 & I0 & N0 & M0).
      cbn [serve]. change (stopping (with_notes t s)) with (stopping s). destruct (stopping s).
      * apply (CH n Leaving k0); auto. congruence.
      * destruct (get n (with_notes t s)) as [k1|]; [|now apply ID]. apply (CH n Idle k0); auto. congruence.
    + destruct (detach_own s m t P K U E) as (k0 & I0 & N0 & M0 & F). cbn [serve]. rewrite socks_maybe.
      change (kids (with_notes t s)) with (kids s). rewrite F. apply (CH (num k0) Leaving k0); auto. congruence.
  - destruct (notes s) as [|m t] eqn:E; [discriminate|]. destruct (stopped s); [|discriminate]. injection H as <-.
    destruct m as [n|m]; [|now apply ID].
    assert (J : In (Attach n) (notes s)) by (rewrite E; now left). apply (k_made _ K) in J. destruct J as (k0 & I0 & N0 & M0).
    apply (CH n Leaving k0); auto. congruence.
  - destruct (stopping s); [discriminate|]. injection H as <-. apply ID. exact (socks_maybe (with_stops true false s)).
  - destruct (get n s) as [k0|] eqn:G; [|discriminate]. destruct (is_phase (ph k0) Idle) eqn:B; [|discriminate]. injection H as <-.
    apply is_phase_eq in B. apply get_in in G. destruct G. apply (CH n Active k0); auto. congruence.
  - destruct (get n s) as [k0|] eqn:G; [|discriminate]. destruct (is_phase (ph k0) Active) eqn:B; [|discriminate]. injection H as <-.
    apply get_in in G. destruct G as [I0 N0]. destruct (Nat.eq_dec (num k) n) as [X|X].
    + exists (set_ph Ended k). split; [|split; [unfold same_sock; cbn; auto|right; split; [congruence|reflexivity]]].
      apply (in_chg n Ended s). left. exists k. auto.
    + exists k. split; [|split; [apply same_refl|auto]]. apply (stays_chg n Ended s); auto.
  - destruct (get n s) as [k0|] eqn:G; [|discriminate]. destruct (is_phase (ph k0) Leaving) eqn:B; [|discriminate]. injection H as <-.
    apply is_phase_eq in B. apply get_in in G. destruct G as [I0 N0]. exists k. split; [|split; [apply same_refl|auto]].
    cbn. apply filter_In. split; [exact I|]. apply negb_true_iff, Nat.eqb_neq. intros X.
    assert (k = k0) by (apply (num_eq s); auto; congruence). congruence.
  - injection H as <-. exists (if lport k =? p then set_waiting (waiting k ++ [g]) k else k).
    split; [cbn; apply in_map_iff; exists k; auto|]. destruct (lport k =? p); split; try apply same_refl; auto.
    unfold same_sock. cbn. auto.
  - destruct (get n s) as [k0|]; [|discriminate]. destruct (waiting k0) as [|g w]; [discriminate|].
    destruct (receiving (ph k0)); [|discriminate]. injection H as <-. rewrite socks_tell.
    exists (if num k =? n then set_waiting w k else k).
    split; [cbn; apply in_map_iff; exists k; auto|]. destruct (num k =? n); split; try apply same_refl; auto.
    unfold same_sock. cbn. auto.
  - destruct (get n s) as [k0|]; [|discriminate]. destruct (is_phase (ph k0) Active); [|discriminate]. injection H as <-. apply ID, socks_tell.
  - destruct (get n s) as [k0|]; [|discriminate]. destruct (is_phase (ph k0) Active); [|discriminate].
    destruct (literal (host a)); [|injection H as <-; now apply ID]. destruct ok; injection H as <-; now apply ID.
  - injection H as <-. now apply ID.
  - destruct ((p =? 0) || mem p (used s)); [discriminate|]. injection H as <-. now apply ID.
  - destruct (mem p (others s)); [|discriminate]. injection H as <-. now apply ID.
Qed.
Lemma same_trans : forall a b c, same_sock a b -> same_sock b c -> same_sock a c.
Proof. unfold same_sock. intros a b c (A & B & C & D) (E & F & G & H). repeat split; congruence. Qed.
Lemma active_run : forall es s s' k, ports_ok s -> kids_ok s -> Forall asks es -> run s es = Some s' -> In k (socks s) -> ph k = Active ->
  ~ In (Stop (num k)) es -> exists k', In k' (socks s') /\ same_sock k k' /\ ph k' = Active.
Proof.
  induction es as [|e es IH]; cbn; intros s s' k P K F H I A N.
  - injection H as <-. exists k. split; [exact I|]. split; [apply same_refl|exact A].
  - destruct (step s e) as [s1|] eqn:E; [|discriminate]. inversion F as [|? ? F1 F2]; subst.
    destruct (active_step s e s1 k P K E I A) as (k1 & I1 & S1 & B). destruct B as [B|[B _]]; [|exfalso; apply N; auto].
    destruct (IH s1 s' k1) as (k' & I' & S' & A'); auto; [eapply po_step; eauto|eapply ko_step; eauto| |].
    + destruct S1 as [X _]. rewrite X. tauto.
    + exists k'. split; [exact I'|]. split; [eapply same_trans; eauto|exact A'].
Qed.
Lemma taken_port : forall s h a pick k, In k (socks s) -> lport k = port a -> port a <> 0 -> bind h a pick s = s.
Proof.
  intros s h a pick k I E Z. unfold bind, acquire. destruct pick; [|reflexivity]. apply Nat.eqb_neq in Z. rewrite Z.
  replace (mem (port a) (used s)) with true; [now rewrite orb_true_r|]. symmetry. apply mem_in. unfold used. apply in_app_iff. left.
  rewrite <- E. now apply in_map.
Qed.

(* ---- the end ---- *)
Definition own (e : event) : Prop :=
  match e with Serve | Discard | Start _ | Stop _ | Close _ => True | _ => False end.
Definition weight (p : phase) : nat := match p with Made => 6 | Idle => 5 | Active => 4 | Ended => 2 | Leaving => 1 end.
Fixpoint total (l : list sock) : nat := match l with [] => 0 | k :: t => weight (ph k) + total t end.
Definition measure (s : state) : nat := List.length (notes s) + total (socks s).
Lemma total_chg : forall l n p k, NoDup (map num l) -> In k l -> num k = n ->
  total (map (fun k => if num k =? n then set_ph p k else k) l) + weight (ph k) = total l + weight p.
Proof.
  induction l as [|x l IH]; cbn; intros n p k N I E; [easy|]. apply NoDup_cons_iff in N. destruct N as [N1 N2]. destruct I as [->|I].
  - rewrite E, Nat.eqb_refl. cbn.
    assert (X : map (fun k => if num k =? n then set_ph p k else k) l = l).
    { transitivity (map (fun k : sock => k) l); [|apply map_id]. apply map_ext_in. intros y J. destruct (Nat.eqb_spec (num y) n); [|reflexivity].
      exfalso. apply N1. rewrite E, <- e. now apply in_map. }
    rewrite X. lia.
  - assert (num x <> n) by (intros X; apply N1; rewrite X, <- E; now apply in_map).
    apply Nat.eqb_neq in H. rewrite H. specialize (IH n p k N2 I E). lia.
Qed.
Lemma total_filter : forall l n k, In k l -> num k = n -> total (filter (fun k => negb (num k =? n)) l) < total l.
Proof.
  induction l as [|x l IH]; cbn; intros n k I E; [easy|].
  assert (LE : total (filter (fun k => negb (num k =? n)) l) <= total l).
  { clear. induction l as [|x l IH]; cbn; [lia|]. destruct (num x =? n); cbn; lia. }
  assert (W : 0 < weight (ph x)) by (destruct (ph x); cbn; lia).
  destruct I as [->|I]; [rewrite E, Nat.eqb_refl; cbn; lia|]. specialize (IH n k I E). destruct (num x =? n); cbn; lia.
Qed.
Lemma measure_step : forall s e s', ports_ok s -> kids_ok s -> own e -> step s e = Some s' -> measure s' < measure s.
Proof.
  intros s e s' P K O H. unfold measure. destruct e; cbn in O; try easy; cbn [PortModel.step] in H.
  - destruct (notes s) as [|m t] eqn:E; [discriminate|]. destruct (stopped s) eqn:U; [discriminate|]. injection H as <-.
    destruct m as [n|m].
    + assert (J : In (Attach n) (notes s)) by (rewrite E; now left). apply (k_made _ K) in J. destruct J as (k0 & I0 & N0 & M0).
      cbn [serve]. change (stopping (with_notes t s)) with (stopping s). destruct (stopping s).
      * cbn. pose proof (total_chg _ n Leaving k0 (p_num _ P) I0 N0) as T. rewrite M0 in T. cbn in T. lia.
      * destruct (get n (with_notes t s)) as [k1|]; [|cbn; lia].
        cbn. pose proof (total_chg _ n Idle k0 (p_num _ P) I0 N0) as T. rewrite M0 in T. cbn in T. lia.
    + destruct (detach_own s m t P K U E) as (k0 & I0 & N0 & M0 & F). cbn [serve]. rewrite socks_maybe.
      change (kids (with_notes t s)) with (kids s). rewrite F.
      replace (notes (maybe_stop _)) with t by (unfold maybe_stop; match goal with |- context [if ?c then _ else _] => destruct c end; reflexivity).
      cbn. pose proof (total_chg _ (num k0) Leaving k0 (p_num _ P) I0 eq_refl) as T. rewrite M0 in T. cbn in T. lia.
  - destruct (notes s) as [|m t] eqn:E; [discriminate|]. destruct (stopped s); [|discriminate]. injection H as <-.
    destruct m as [n|m]; [|cbn; lia].
    assert (J : In (Attach n) (notes s)) by (rewrite E; now left). apply (k_made _ K) in J. destruct J as (k0 & I0 & N0 & M0).
    cbn. pose proof (total_chg _ n Leaving k0 (p_num _ P) I0 N0) as T. rewrite M0 in T. cbn in T. lia.
  - destruct (get n s) as [k0|] eqn:G; [|discriminate]. destruct (is_phase (ph k0) Idle) eqn:B; [|discriminate]. injection H as <-.
    apply is_phase_eq in B. apply get_in in G. destruct G as [I0 N0].
    cbn. pose proof (total_chg _ n Active k0 (p_num _ P) I0 N0) as T. rewrite B in T. cbn in T. lia.
  - destruct (get n s) as [k0|] eqn:G; [|discriminate]. destruct (is_phase (ph k0) Active) eqn:B; [|discriminate]. injection H as <-.
    apply is_phase_eq in B. apply get_in in G. destruct G as [I0 N0].
    cbn. rewrite app_length. cbn. pose proof (total_chg _ n Ended k0 (p_num _ P) I0 N0) as T. rewrite B in T. cbn in T. lia.
  - destruct (get n s) as [k0|] eqn:G; [|discriminate]. destruct (is_phase (ph k0) Leaving) eqn:B; [|discriminate]. injection H as <-.
    apply get_in in G. destruct G as [I0 N0]. cbn. pose proof (total_filter _ n k0 I0 N0). lia.
Qed.
Lemma own_asks : forall e, own e -> asks e. Proof. destruct e; cbn; tauto. Qed.
Lemma measure_run : forall es s s', ports_ok s -> kids_ok s -> Forall own es -> run s es = Some s' -> List.length es + measure s' <= measure s.
Proof.
  induction es as [|e es IH]; cbn; intros s s' P K F H; [injection H as <-; lia|]. destruct (step s e) as [s1|] eqn:E; [|discriminate].
  inversion F as [|? ? F1 F2]; subst. pose proof (measure_step s e s1 P K F1 E).
  assert (P1 : ports_ok s1) by (eapply po_step; eauto). assert (K1 : kids_ok s1) by (exact (ko_step s e s1 P K (own_asks e F1) E)).
  specialize (IH s1 s' P1 K1 F2 H). lia.
Qed.
Lemma rest : forall s, ports_ok s -> kids_ok s -> stopping s = true -> (forall e, own e -> step s e = None) -> stopped s = true /\ socks s = [].
Proof.
  intros s P K ST R.
  assert (N : notes s = []).
  { destruct (notes s) as [|m t] eqn:E; [reflexivity|]. exfalso. destruct (stopped s) eqn:U.
    - specialize (R Discard I). cbn in R. rewrite E, U in R. discriminate.
    - specialize (R Serve I). cbn in R. rewrite E, U in R. discriminate. }
  assert (X : forall k, ~ In k (socks s)).
  { intros k J. pose proof (get_some s k (p_num _ P) J) as G. destruct (ph k) eqn:Q.
    - assert (Y : In (Attach (num k)) (notes s)) by (apply (k_made _ K); exists k; auto). rewrite N in Y. destruct Y.
    - specialize (R (Start (num k)) I). cbn in R. rewrite G, Q in R. discriminate.
    - specialize (R (Stop (num k)) I). cbn in R. rewrite G, Q in R. discriminate.
    - destruct (stopped s) eqn:U.
      + destruct (k_stopped _ K U) as [_ Y]. assert (Z : In (num k, to_string (asked k)) (kids s)) by (apply K; unfold attached; auto). rewrite Y in Z. destruct Z.
      + assert (Y : In (Detach (to_string (asked k))) (notes s)) by (apply (k_ended _ K _ U); exists k; auto). rewrite N in Y. destruct Y.
    - specialize (R (Close (num k)) I). cbn in R. rewrite G, Q in R. discriminate. }
  split.
  - destruct (stopped s) eqn:U; [reflexivity|]. exfalso. pose proof (k_waits _ K ST U) as W. destruct (kids s) as [|[n m] l] eqn:E; [easy|].
    destruct (k_kid _ K n m) as (k & J & _); [rewrite E; now left|]. now apply (X k).
  - destruct (socks s) as [|k l] eqn:E; [reflexivity|]. exfalso. apply (X k). now left.
Qed.

(* ---- datagrams ---- *)
Definition here (s : state) (n : nat) (e : event) : list gram :=
  match e with
  | Arrive p g => match get n s with Some k => if lport k =? p then [g] else [] | None => [] end
  | _ => []
  end.
Fixpoint arrivals (s : state) (n : nat) (es : list event) : list gram :=
  match es with
  | [] => []
  | e :: t => here s n e ++ match step s e with Some s' => arrivals s' n t | None => [] end
  end.
Definition heard (n : nat) (l : list (nat * answer)) : list (nat * data * address) :=
  flat_map (fun x => match snd x with Received d a m => if m =? n then [(fst x, d, a)] else [] | _ => [] end) l.
Arguments heard : simpl never.
Lemma heard_recv : forall n h d a m, heard n [(h, Received d a m)] = if m =? n then [(h, d, a)] else [].
Proof. intros. unfold heard. cbn. destruct (m =? n); reflexivity. Qed.
Definition as_told (h : nat) (g : gram) : nat * data * address := (h, payload g, Address (show (fst (from g))) (snd (from g))).
Definition D (A : nat -> list gram) (s : state) : Prop :=
  (forall n, next s <= n -> A n = [] /\ heard n (told s) = []) /\
  (forall k, In k (socks s) -> exists taken,
     A (num k) = taken ++ waiting k /\ (~ In (owner k) (gone s) -> heard (num k) (told s) = map (as_told (owner k)) taken)).
Lemma D_frame : forall A B s s', D A s -> (forall n, B n = A n) -> next s' = next s -> (forall n, heard n (told s') = heard n (told s)) ->
  (forall x, In x (gone s) -> In x (gone s')) ->
  (forall k', In k' (socks s') -> exists k, In k (socks s) /\ num k' = num k /\ owner k' = owner k /\ waiting k' = waiting k) -> D B s'.
Proof.
  intros A B s s' [D1 D2] E N T G S. split.
  - intros n L. rewrite E, T. apply D1. lia.
  - intros k' I. destruct (S k' I) as (k & J & E1 & E2 & E3). destruct (D2 k J) as (taken & Y1 & Y2).
    exists taken. rewrite E, T, E1, E2, E3. split; [exact Y1|]. intros X. apply Y2. intros Z. apply X. auto.
Qed.
Lemma heard_app : forall n a b, heard n (a ++ b) = heard n a ++ heard n b.
Proof. intros. apply flat_map_app. Qed.
Lemma heard_tell : forall n h m s, (forall d a j, m <> Received d a j) -> heard n (told (tell h m s)) = heard n (told s).
Proof.
  intros n h m s X. unfold tell. destruct (mem h (gone s)); [reflexivity|]. cbn. rewrite heard_app.
  destruct m as [l|d a j|j]; [apply app_nil_r|now destruct (X d a j)|apply app_nil_r].
Qed.
Lemma gone_tell : forall h m s, gone (tell h m s) = gone s.
Proof. intros. unfold tell. destruct (mem h (gone s)); reflexivity. Qed.
Lemma next_tell : forall h m s, next (tell h m s) = next s.
Proof. intros. unfold tell. destruct (mem h (gone s)); reflexivity. Qed.
Lemma maybe_same : forall s, next (maybe_stop s) = next s /\ told (maybe_stop s) = told s /\ gone (maybe_stop s) = gone s.
Proof. intros s. unfold maybe_stop. destruct (stopping s && none (kids s)); auto. Qed.
Lemma self_same : forall s k', In k' (socks s) -> exists k, In k (socks s) /\ num k' = num k /\ owner k' = owner k /\ waiting k' = waiting k.
Proof. intros s k' I. exists k'. auto. Qed.
Lemma chg_same : forall n p s k', In k' (socks (update n (set_ph p) s)) -> exists k, In k (socks s) /\ num k' = num k /\ owner k' = owner k /\ waiting k' = waiting k.
Proof. intros n p s k' I. apply in_chg in I. destruct I as [(k & I & _ & ->)|[I _]]; [exists k|exists k']; auto. Qed.
Lemma D_step : forall A s e s', ports_ok s -> D A s -> step s e = Some s' -> D (fun n => A n ++ here s n e) s'.
Proof.
  intros A s e s' P DD H.
  assert (FR : forall s', next s' = next s -> (forall n, heard n (told s') = heard n (told s)) ->
    (forall x, In x (gone s) -> In x (gone s')) ->
    (forall k', In k' (socks s') -> exists k, In k (socks s) /\ num k' = num k /\ owner k' = owner k /\ waiting k' = waiting k) ->
    D (fun n => A n ++ []) s').
  { intros s2. apply (D_frame A); [exact DD|]. intros n. apply app_nil_r. }
  destruct e; cbn [PortModel.step] in H; cbn [here].
  - destruct (stopped s) eqn:U; [discriminate|]. injection H as <-. unfold bind. destruct (acquire a pick s) as [p|]; [|apply FR; auto; exact (self_same s)].
    destruct (is_valid_actor_name (to_string a)); [|apply FR; auto; exact (self_same s)].
    destruct DD as [D1 D2]. split.
    + intros n L. rewrite next_tell in L. cbn in L. rewrite heard_tell by discriminate. cbn. destruct (D1 n) as [X Y]; [lia|]. rewrite X, Y. auto.
    + intros k I. rewrite socks_tell in I. rewrite gone_tell. rewrite heard_tell by discriminate. cbn in I |- *. rewrite app_nil_r. apply in_app_iff in I.
      destruct I as [I|[<-|[]]]; [now apply D2|]. exists []. cbn. destruct (D1 (next s)) as [X Y]; [lia|]. auto.
  - destruct (notes s) as [|m t] eqn:E; [discriminate|]. destruct (stopped s) eqn:U; [discriminate|]. injection H as <-.
    destruct m as [n|m]; cbn [serve].
    + change (stopping (with_notes t s)) with (stopping s). destruct (stopping s).
      * apply FR; auto. intros k'. apply (chg_same n Leaving s).
      * destruct (get n (with_notes t s)); apply FR; auto; [intros k'; apply (chg_same n Idle s)|exact (self_same s)].
    + match goal with |- D _ (maybe_stop ?x) => set (s1 := x); destruct (maybe_same s1) as (M1 & M2 & M3) end.
      assert (Q : next s1 = next s /\ told s1 = told s /\ gone s1 = gone s) by (unfold s1; destruct (first_named m (kids (with_notes t s))); auto).
      destruct Q as (Q1 & Q2 & Q3). apply FR; [congruence|intros n; congruence|intros x; congruence|].
      intros k'. rewrite socks_maybe. unfold s1. destruct (first_named m (kids (with_notes t s))) as [n|]; [apply (chg_same n Leaving s)|exact (self_same s k')].
  - destruct (notes s) as [|m t] eqn:E; [discriminate|]. destruct (stopped s); [|discriminate]. injection H as <-.
    destruct m as [n|m]; apply FR; auto; [intros k'; apply (chg_same n Leaving s)|exact (self_same s)].
  - destruct (stopping s); [discriminate|]. injection H as <-. destruct (maybe_same (with_stops true false s)) as (M1 & M2 & M3).
    apply FR; rewrite ?M1, ?M2, ?M3, ?socks_maybe; auto. exact (self_same s).
  - destruct (get n s) as [k0|]; [|discriminate]. destruct (is_phase (ph k0) Idle); [|discriminate]. injection H as <-.
    apply FR; auto. apply chg_same.
  - destruct (get n s) as [k0|]; [|discriminate]. destruct (is_phase (ph k0) Active); [|discriminate]. injection H as <-.
    apply FR; auto. apply (chg_same n Ended s).
  - destruct (get n s) as [k0|]; [|discriminate]. destruct (is_phase (ph k0) Leaving); [|discriminate]. injection H as <-.
    apply FR; auto. cbn. intros k' I. apply filter_In in I. exists k'. tauto.
  - injection H as <-. destruct DD as [D1 D2]. split.
    + cbn. intros n L. destruct (D1 n L) as [X Y]. rewrite X. split; [|exact Y]. destruct (get n s) as [k|] eqn:G; [|reflexivity].
      apply get_in in G. destruct G as [I N]. apply (p_next _ P) in I. lia.
    + cbn. intros k' I. apply in_map_iff in I. destruct I as (k & E & I).
      assert (GS := get_some s k (p_num _ P) I).
      destruct (lport k =? p) eqn:L; subst k'; cbn; rewrite GS, L; destruct (D2 k I) as (taken & X & Y); exists taken.
      * rewrite X, app_assoc. auto.
      * rewrite app_nil_r. auto.
  - destruct (get n s) as [k0|] eqn:G0; [|discriminate]. destruct (waiting k0) as [|g w] eqn:W; [discriminate|].
    destruct (receiving (ph k0)); [|discriminate]. injection H as <-. apply get_in in G0. destruct G0 as [I0 N0]. destruct DD as [D1 D2]. split.
    + intros m L. rewrite next_tell in L. cbn in L. destruct (D1 m L) as [X Y]. rewrite X. split; [reflexivity|].
      unfold tell. destruct (mem _ _); [exact Y|]. cbn. rewrite heard_app, Y, heard_recv. destruct (Nat.eqb_spec n m); [|reflexivity].
      apply (p_next _ P) in I0. lia.
    + intros k' I. rewrite socks_tell in I. rewrite gone_tell. cbn in I. rewrite app_nil_r. apply in_map_iff in I. destruct I as (k & E & I).
      destruct (Nat.eqb_spec (num k) n) as [X|X].
      * assert (k = k0) by (apply (num_eq s); auto; congruence). subst k k'. cbn. destruct (D2 k0 I) as (taken & Y1 & Y2).
        exists (taken ++ [g]). rewrite Y1, W, <- app_assoc. split; [reflexivity|]. intros G. specialize (Y2 G).
        unfold tell. change (gone (update n (set_waiting w) s)) with (gone s). apply mem_out in G. rewrite G. cbn.
        rewrite heard_app, Y2, map_app, heard_recv, N0, Nat.eqb_refl. reflexivity.
      * subst k'. destruct (D2 k I) as (taken & Y1 & Y2). exists taken. split; [exact Y1|]. intros G. rewrite <- (Y2 G).
        unfold tell. destruct (mem _ _); [reflexivity|]. cbn. rewrite heard_app, heard_recv.
        destruct (Nat.eqb_spec n (num k)); [congruence|]. now rewrite app_nil_r.
  - destruct (get n s) as [k0|]; [|discriminate]. destruct (is_phase (ph k0) Active); [|discriminate]. injection H as <-.
    apply FR; rewrite ?next_tell, ?gone_tell, ?socks_tell; auto; [intros j; apply heard_tell; discriminate|exact (self_same s)].
  - destruct (get n s) as [k0|]; [|discriminate]. destruct (is_phase (ph k0) Active); [|discriminate].
    destruct (literal (host a)); [destruct ok|]; injection H as <-; apply FR; auto; exact (self_same s).
  - injection H as <-. apply FR; auto; [cbn; auto|exact (self_same s)].
  - destruct ((p =? 0) || mem p (used s)); [discriminate|]. injection H as <-. apply FR; auto. exact (self_same s).
  - destruct (mem p (others s)); [|discriminate]. injection H as <-. apply FR; auto. exact (self_same s).
Qed.
Lemma D_run : forall es A s s', ports_ok s -> D A s -> run s es = Some s' -> D (fun n => A n ++ arrivals s n es) s'.
Proof.
  induction es as [|e es IH]; cbn; intros A s s' P DD H.
  - injection H as <-. eapply D_frame; [exact DD| | | | |]; auto; [intros n; apply app_nil_r|apply self_same].
  - destruct (step s e) as [s1|] eqn:E; [|discriminate].
    pose proof (IH _ s1 s' (po_step s e s1 P E) (D_step A s e s1 P DD E) H) as X.
    eapply D_frame; [exact X| | | | |]; auto; [intros n; cbn; now rewrite app_assoc|apply self_same].
Qed.
Lemma D_init : D (fun _ => []) init.
Proof. split; cbn; auto. intros k []. Qed.
(* whatever was received had arrived, whoever has ended since *)
Lemma heard_step : forall s e s' h d a n, step s e = Some s' -> In (h, Received d a n) (told s') ->
  In (h, Received d a n) (told s) \/ exists k g, get n s = Some k /\ In g (waiting k) /\ h = owner k /\ d = payload g /\ a = Address (show (fst (from g))) (snd (from g)).
Proof.
  intros s e s' h d a n H I.
  assert (TT : forall h' m s0, told s0 = told s -> In (h, Received d a n) (told (tell h' m s0)) -> In (h, Received d a n) (told s) \/ (h', m) = (h, Received d a n)).
  { intros h' m s0 E J. unfold tell in J. destruct (mem h' (gone s0)); [rewrite E in J; auto|]. cbn in J. rewrite E in J. apply in_app_iff in J.
    destruct J as [J|[J|[]]]; auto. }
  destruct e; cbn [PortModel.step] in H.
  - destruct (stopped s); [discriminate|]. injection H as <-. unfold bind in I. destruct (acquire a0 pick s); [|auto].
    destruct (is_valid_actor_name (to_string a0)); [|auto]. apply TT in I; [|reflexivity]. destruct I as [I|I]; [auto|discriminate].
  - destruct (notes s) as [|m t]; [discriminate|]. destruct (stopped s); [discriminate|]. injection H as <-. left.
    destruct m as [j|m]; cbn [serve] in I.
    + destruct (stopping (with_notes t s)); [exact I|]. destruct (get j (with_notes t s)); exact I.
    + match type of I with context [maybe_stop ?x] => destruct (maybe_same x) as (_ & M & _); rewrite M in I end.
      destruct (first_named m (kids (with_notes t s))); exact I.
  - destruct (notes s) as [|m t]; [discriminate|]. destruct (stopped s); [|discriminate]. injection H as <-. left. destruct m; exact I.
  - destruct (stopping s); [discriminate|]. injection H as <-. left. destruct (maybe_same (with_stops true false s)) as (_ & M & _). now rewrite M in I.
  - destruct (get n0 s) as [k0|]; [|discriminate]. destruct (is_phase (ph k0) Idle); [|discriminate]. injection H as <-. auto.
  - destruct (get n0 s) as [k0|]; [|discriminate]. destruct (is_phase (ph k0) Active); [|discriminate]. injection H as <-. auto.
  - destruct (get n0 s) as [k0|]; [|discriminate]. destruct (is_phase (ph k0) Leaving); [|discriminate]. injection H as <-. auto.
  - injection H as <-. auto.
  - destruct (get n0 s) as [k0|] eqn:G; [|discriminate]. destruct (waiting k0) as [|g w] eqn:W; [discriminate|].
    destruct (receiving (ph k0)); [|discriminate]. injection H as <-. apply TT in I; [|reflexivity]. destruct I as [I|I]; [auto|].
    injection I as <- <- <- <-. right. exists k0, g. rewrite W. cbn. auto 6.
  - destruct (get n0 s) as [k0|]; [|discriminate]. destruct (is_phase (ph k0) Active); [|discriminate]. injection H as <-.
    apply TT in I; [|reflexivity]. destruct I as [I|I]; [auto|discriminate].
  - destruct (get n0 s) as [k0|]; [|discriminate]. destruct (is_phase (ph k0) Active); [|discriminate].
    destruct (literal (host a0)); [destruct ok|]; injection H as <-; auto.
  - injection H as <-. auto.
  - destruct ((p =? 0) || mem p (used s)); [discriminate|]. injection H as <-. auto.
  - destruct (mem p (others s)); [|discriminate]. injection H as <-. auto.
Qed.

Lemma heard_run : forall es A s s' h d a n, ports_ok s -> D A s -> run s es = Some s' -> In (h, Received d a n) (told s') ->
  In (h, Received d a n) (told s) \/ exists g, In g (A n ++ arrivals s n es) /\ d = payload g /\ a = Address (show (fst (from g))) (snd (from g)).
Proof.
  induction es as [|e es IH]; cbn; intros A s s' h d a n P DD H I; [injection H as <-; auto|].
  destruct (step s e) as [s1|] eqn:E; [|discriminate].
  destruct (IH _ s1 s' h d a n (po_step s e s1 P E) (D_step A s e s1 P DD E) H I) as [J|(g & J & X)].
  - destruct (heard_step s e s1 h d a n E J) as [J'|(k & g & G & W & _ & X & Y)]; [auto|]. right. exists g. split; [|auto].
    apply get_in in G. destruct G as [I' N']. destruct DD as [_ D2]. destruct (D2 k I') as (taken & Z & _). rewrite N' in Z.
    rewrite Z, !in_app_iff. auto.
  - right. exists g. split; [|exact X]. now rewrite app_assoc.
Qed.
End S.
