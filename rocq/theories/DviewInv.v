(* The objects a program can come to: they show cells of the first view. *)
From Coq Require Import List NArith ZArith Bool Lia Arith.
From Verif Require Import NdModel NdSpec NdProofs NdAccess NdSampler NdProps DviewModel DviewSpec DviewProofs.
Import ListNotations.
Local Open Scope N_scope.

Fixpoint totals (ds : list desc) : Prop :=
  match ds with
  | [] => True
  | d :: r => w64 (d_total d) = w64 (volume (map d_size ds)) /\ totals r
  end.
Lemma totals_plain ext : totals (plain_descs ext).
Proof.
  induction ext as [|e ext IH]; [exact I|]. pose proof (plain_descs_facts (e :: ext)) as [F1 F2].
  cbn [plain_descs] in *. destruct (plain_descs ext) as [|d ds] eqn:E; destruct F2 as (_ & F2 & _);
    (split; [rewrite F1; exact F2|exact IH]).
Qed.
Lemma totals_elem sz es : totals (elem_descs sz es).
Proof.
  induction es as [|[e s] es IH]; [exact I|]. pose proof (elem_descs_facts sz ((e, s) :: es)) as [F1 F2].
  cbn [elem_descs] in *. destruct (elem_descs sz es) as [|d ds] eqn:E; destruct F2 as (_ & F2 & _);
    (split; [rewrite F1; exact F2|exact IH]).
Qed.
Lemma totals_top sz e ds : totals ds -> totals (top_desc sz e ds).
Proof.
  destruct ds as [|d ds]; intros T.
  - cbn. now rewrite N.mul_1_r.
  - split; [|exact T]. destruct T as [T _]. cbn [d_total map d_size volume]. unfold mul64. cbn [map volume] in T.
    now rewrite w64_w64, <- w64_mul_r, T, w64_mul_r.
Qed.
Lemma totals_view k sz ds : totals ds -> totals (map (fun d => Desc (d_size d) (d_total d) (bytes k sz d)) ds).
Proof.
  induction ds as [|d ds IH]; [easy|]. intros [T T']. split; [|apply IH, T'].
  change (w64 (d_total d) = w64 (volume (map d_size (map (fun d => Desc (d_size d) (d_total d) (bytes k sz d)) (d :: ds))))).
  rewrite map_map. exact T.
Qed.

Record good (sz : N) (fuel : nat) (E : N -> Prop) (o : object) : Prop := Good {
  g_some : p_descs (proxy_of o) <> [];
  g_ptr : p_ptr (proxy_of o) < 2 ^ 64;
  g_totals : totals (p_descs (proxy_of o));
  g_plain : kind_of o = Plain -> p_descs (proxy_of o) = plain_descs (sizes (proxy_of o));
  g_fits : fits fuel (sizes (proxy_of o));
  g_cells : In 0 (sizes (proxy_of o)) \/
    let ns := sizes (proxy_of o) in let st := steps (kind_of o) sz (p_descs (proxy_of o)) in
    ok ns st /\ Forall (fun n => 0 < n) ns /\ p_ptr (proxy_of o) + hd 0 ns * hd 0 st < 2 ^ 64 /\
    hd 0 ns * hd 0 st <= bytes (kind_of o) sz (top (proxy_of o)) /\
    (forall is, in_range ns is -> E (p_ptr (proxy_of o) + dot is st))
}.

Lemma good_proper sz fuel E o : good sz fuel E o -> proper o.
Proof.
  intros G K. exists (p_ptr (proxy_of o)), (sizes (proxy_of o)). unfold vector_proxy. rewrite <- (g_plain _ _ _ _ G K).
  now destruct (proxy_of o).
Qed.
Lemma steps_last k sz ds : last (steps k sz ds) 0 = sz.
Proof. unfold steps. now rewrite last_last. Qed.
Lemma fits_tl fuel n ns : fits fuel (n :: ns) -> 0 < n -> fits fuel ns.
Proof. intros [F V] P. inversion F; subst. split; [assumption|]. cbn [volume] in V. nia. Qed.
Lemma not_in_range_zero ns is : In 0 ns -> ~ in_range ns is.
Proof. intros Z R. induction R as [|n i ns is H R IH]; [easy|]. destruct Z as [->|Z]; [lia|auto]. Qed.

(* an index in range is a cell *)
Lemma good_nested sz fuel E o is : good sz fuel E o -> in_range (sizes (proxy_of o)) is ->
  0 < sz -> E (nested (kind_of o) sz (proxy_of o) is).
Proof.
  intros G R Hz. destruct (g_cells _ _ _ _ G) as [Z|(O & P & B & _ & C)]; [now apply not_in_range_zero in R|].
  pose proof (in_range_length _ _ R) as L. rewrite sizes_length in L.
  rewrite nested_dot; [|lia|].
  - pose proof (dot_inside _ _ _ O R) as D. rewrite w64_small by lia. now apply C.
  - intros ->. pose proof (g_some _ _ _ _ G). destruct (p_descs (proxy_of o)); [congruence|discriminate].
Qed.

(* ---- steps ---- *)

Lemma good_sub sz fuel E o i o' : good sz fuel E o -> 0 < sz -> subscript true sz o i = Go o' -> good sz fuel E o'.
Proof.
  intros G Hz H. unfold subscript in H.
  destruct (p_descs (proxy_of o)) as [|d [|d' ds]] eqn:Ed; try discriminate.
  unfold requires in H. destruct (i <? size (proxy_of o) 0) eqn:Lt; [|discriminate]. apply N.ltb_lt in Lt.
  cbn in H. injection H as <-. unfold size in Lt. rewrite Ed in Lt. cbn in Lt.
  destruct G as [_ Gp Gt Gk Gf Gc]. unfold sizes in *. rewrite Ed in *.
  assert (Es : p_descs (sub_view (kind_of o) sz (proxy_of o) i) = d' :: ds) by (unfold sub_view; now rewrite Ed).
  assert (Ep : p_ptr (sub_view (kind_of o) sz (proxy_of o) i) = w64 (p_ptr (proxy_of o) + i * bytes (kind_of o) sz d')).
  { unfold sub_view. rewrite Ed. cbn. unfold add64, mul64. now rewrite w64_add_r. }
  constructor; cbn [proxy_of kind_of]; unfold sizes; rewrite ?Es, ?Ep.
  - discriminate.
  - apply w64_lt.
  - apply Gt.
  - intros K. specialize (Gk K). cbn [map] in Gk |- *. rewrite <- (plain_tl (d_size d)), <- Gk. reflexivity.
  - eapply fits_tl; [exact Gf|lia].
  - destruct Gc as [Z|(O & P & B & T & C)].
    { left. destruct Z as [Z|Z]; [lia|exact Z]. }
    right. cbn zeta in *. set (k := kind_of o) in *. set (q := p_ptr (proxy_of o)) in *.
    change (steps k sz (d :: d' :: ds)) with (bytes k sz d' :: steps k sz (d' :: ds)) in *.
    cbn [map hd] in B, T. set (b := bytes k sz d') in *.
    pose proof O as O0. cbn [map] in O0. apply ok_inv in O0.
    destruct O0 as [[X _]|(e' & er & b' & br & X & Y & Hb & O')]; [discriminate|].
    injection X as <- <-. rewrite Y in *. clear Y. cbn [map] in *. inversion P as [|? ? Pd P']; subst.
    cbn [hd] in *.
    assert (Ex : w64 (q + i * b) = q + i * b) by (apply w64_small; nia). rewrite Ex.
    split; [exact O'|]. split; [exact P'|]. split; [nia|]. split.
    + unfold top. rewrite Es. cbn [hd]. exact Hb.
    + intros is R. specialize (C (i :: is)). cbn [dot] in C. rewrite N.add_assoc in C. apply C. now constructor.
Qed.

Lemma steps_view k sz d ds :
  steps Strided sz (map (fun d => Desc (d_size d) (d_total d) (bytes k sz d)) (d :: ds)) = steps k sz (d :: ds).
Proof. unfold steps. cbn [tl map]. rewrite map_map. reflexivity. Qed.

Lemma good_view sz fuel E o : good sz fuel E o -> 0 < sz -> good sz fuel E (as_view sz o).
Proof.
  intros G Hz. destruct o as [p|k p]; [exact G|]. cbn [as_view].
  destruct G as [Gn Gp Gt Gk Gf Gc]. unfold sizes in *. cbn [proxy_of kind_of] in *.
  destruct p as [q ds]. cbn [p_descs p_ptr] in *. unfold view_of_proxy. cbn [p_descs p_ptr].
  destruct ds as [|d [|d' ds]]; [congruence| |].
  - constructor; cbn [proxy_of kind_of p_descs p_ptr]; unfold sizes; cbn [p_descs]; try easy.
    + exact (totals_top sz (d_size d) [] I).
    + destruct Gc as [Z|(O & P & B & T & C)]; [now left|right]. cbn zeta in *.
      split; [exact O|]. split; [exact P|]. split; [exact B|]. split; [|exact C].
      cbn in B |- *. unfold bytes, offset_to_bytes. cbn. unfold mul64. rewrite w64_small; lia.
  - set (f := fun d => Desc (d_size d) (d_total d) (bytes k sz d)).
    assert (Em : map d_size (map f (d :: d' :: ds)) = map d_size (d :: d' :: ds)) by (rewrite map_map; reflexivity).
    constructor; cbn [proxy_of kind_of p_descs p_ptr]; unfold sizes; cbn [p_descs]; rewrite ?Em; try easy.
    + exact (totals_view k sz _ Gt).
    + unfold f. rewrite steps_view. exact Gc.
Qed.

(* a view made anew *)
Lemma good_elem sz fuel (E : N -> Prop) ptr e es : 0 < sz -> Forall (fun x => fst x <= snd x) es ->
  ptr + e * stored sz (map snd es) < 2 ^ 64 -> fits fuel (e :: map fst es) ->
  (forall is, in_range (e :: map fst es) is -> E (ptr + dot is (esteps sz (map snd es)))) ->
  good sz fuel E (View (elem_view sz ptr e es)).
Proof.
  intros Hz S B F C. pose proof (elem_view_sizes sz ptr e es) as Es.
  constructor; cbn [proxy_of kind_of]; unfold sizes; rewrite ?Es; try easy.
  - cbn. destruct (elem_descs sz es); discriminate.
  - cbn [p_ptr elem_view]. lia.
  - apply totals_top, totals_elem.
  - destruct (positive_or_zero (e :: map fst es)) as [P|Z]; [right|now left]. cbn zeta.
    inversion P as [|? ? Pe P']; subst.
    change (p_descs (elem_view sz ptr e es)) with (top_desc sz e (elem_descs sz es)).
    rewrite elem_view_steps by (assumption || lia). cbn [p_ptr elem_view hd]. rewrite esteps_hd.
    split; [apply esteps_ok, (Forall2_map_pairs _ _ S)|]. split; [exact P|]. split; [exact B|]. split; [|exact C].
    pose proof (elem_view_stored sz ptr e es ltac:(lia)) as T. unfold total_stored in T. rewrite T. lia.
Qed.

(* a continuous object has its cells one behind the other *)
Lemma continuous_tight sz fuel E o : 0 < sz -> good sz fuel E o -> continuous sz o = true -> ~ In 0 (sizes (proxy_of o)) ->
  volume (sizes (proxy_of o)) * sz = hd 0 (sizes (proxy_of o)) * hd 0 (steps (kind_of o) sz (p_descs (proxy_of o))).
Proof.
  intros Hz G H Nz. destruct (g_cells _ _ _ _ G) as [Z|(O & P & B & T & C)]; [tauto|].
  pose proof (volume_le _ _ O) as V. rewrite steps_last in V.
  pose proof (g_totals _ _ _ _ G) as Gt. pose proof (g_some _ _ _ _ G) as Gn.
  destruct o as [p|k p]; cbn [continuous kind_of proxy_of] in *; unfold sizes in *; destruct p as [q ds]; cbn [p_descs p_ptr] in *.
  - unfold view_continuous, total_size, top in H. cbn [p_descs] in H. apply N.eqb_eq in H.
    destruct ds as [|d ds]; [congruence|]. cbn [hd] in H. destruct Gt as [Gt _].
    unfold mul64 in H. rewrite <- w64_mul_l, Gt, w64_mul_l in H. rewrite w64_small in H by lia.
    unfold top in T. cbn [p_descs hd] in T. unfold bytes, offset_to_bytes in T. rewrite <- H in T. cbn [map hd] in *. lia.
  - unfold proxy_continuous in H. cbn [p_descs] in H.
    destruct ds as [|d [|d' ds]]; [congruence|cbn; lia|]. apply N.eqb_eq in H. destruct Gt as (_ & Gt & _).
    change (steps k sz (d :: d' :: ds)) with (bytes k sz d' :: steps k sz (d' :: ds)) in *.
    cbn [hd] in *. change (map d_size (d :: d' :: ds)) with (d_size d :: map d_size (d' :: ds)) in *.
    cbn [hd volume] in *. inversion P as [|? ? Pd P']; subst.
    unfold mul64 in H. rewrite <- w64_mul_l, Gt, w64_mul_l in H. set (v := volume (map d_size (d' :: ds))) in *.
    rewrite w64_small in H by nia. rewrite H. lia.
Qed.

Lemma good_reshape sz fuel E o e ext o' : 0 < sz -> good sz fuel E o -> reshaped true sz o e ext = Go o' ->
  volume (e :: ext) < 2 ^ 64 -> fits fuel (e :: ext) -> good sz fuel E o'.
Proof.
  intros Hz G H Vb F. unfold reshaped in H. destruct o as [p|k p]; [|discriminate].
  unfold requires at 1 in H. destruct (continuous sz (View p)) eqn:Co; [|discriminate]. cbn [andb negb] in H.
  unfold requires in H. destruct (shape_total (e :: ext) =? total_size p) eqn:Tt; [|discriminate]. cbn [andb negb] in H.
  unfold new_elem, requires in H. destruct (forallb _ _); [|discriminate]. cbn in H. injection H as <-.
  apply N.eqb_eq in Tt.
  assert (Ex : map fst (map (fun x : N => (x, x)) ext) = ext) by (rewrite map_map; apply map_id).
  assert (Ey : map snd (map (fun x : N => (x, x)) ext) = ext) by (rewrite map_map; apply map_id).
  assert (Vw : w64 (volume (sizes p)) = volume (e :: ext)).
  { pose proof (g_totals _ _ _ _ G) as Gt. pose proof (g_some _ _ _ _ G) as Gn. cbn [proxy_of] in *.
    rewrite <- (w64_small _ Vb), <- (shape_total_volume (e :: ext)) by discriminate. rewrite Tt. unfold total_size, top, sizes.
    destruct (p_descs p) as [|d ds]; [congruence|]. symmetry. apply Gt. }

  destruct (positive_or_zero (sizes p)) as [P|Z].
  - assert (Nz : ~ In 0 (sizes p)).
    { intros I. eapply Forall_forall in P; [|exact I]. lia. }
    pose proof (continuous_tight sz fuel E (View p) Hz G Co Nz) as Ti. cbn [proxy_of kind_of] in Ti.
    destruct (g_cells _ _ _ _ G) as [Z|(O & _ & B & T & C)]; [tauto|]. cbn [proxy_of kind_of] in *.
    assert (Vs : volume (sizes p) = volume (e :: ext)) by (rewrite <- Vw; symmetry; apply w64_small; nia).
    apply good_elem; [exact Hz| | | |].
    + apply Forall_forall. intros x Ix. apply in_map_iff in Ix. destruct Ix as (y & <- & _). cbn. lia.
    + rewrite Ey, stored_volume. cbn [volume] in Vs. rewrite Vs in Ti. cbn [volume] in Ti. nia.
    + rewrite Ex. exact F.
    + rewrite Ex, Ey. intros is R. rewrite (dot_dense sz e) by (apply in_range_length in R; cbn in R; lia).
      pose proof (row_major_lt _ _ R) as Lt. rewrite <- Vs in Lt.
      destruct (row_major_onto _ _ Lt) as (js & Rj & Ej). rewrite <- Ej.
      pose proof (tight _ _ O P) as Tg. rewrite steps_last in Tg. specialize (Tg Ti).
      specialize (C js Rj). rewrite Tg in C. destruct (sizes p) as [|n ns]; [inversion Rj; subst; destruct is; cbn in *; lia|].
      cbn [tl] in C. rewrite (dot_dense sz n) in C by (apply in_range_length in Rj; cbn in Rj; lia). exact C.
  - assert (V0 : volume (e :: ext) = 0) by (rewrite <- Vw, volume_zero by exact Z; reflexivity).
    assert (Z' : In 0 (e :: ext)).
    { destruct (positive_or_zero (e :: ext)) as [P|Z']; [|exact Z']. apply volume_pos in P. lia. }
    pose proof (elem_view_sizes sz (p_ptr p) e (map (fun x => (x, x)) ext)) as Es. rewrite Ex in Es.
    constructor; cbn [proxy_of kind_of]; unfold sizes; rewrite ?Es; try easy.
    + cbn. destruct (elem_descs _ _); discriminate.
    + apply (g_ptr _ _ _ _ G).
    + apply totals_top, totals_elem.
    + now left.
Qed.

(* all of a vector *)
Lemma good_vector sz fuel (E : N -> Prop) ptr e ext : 0 < sz -> ptr + volume (e :: ext) * sz < 2 ^ 64 -> fits fuel (e :: ext) ->
  (forall i, i < volume (e :: ext) -> E (ptr + i * sz)) ->
  good sz fuel E (Row Plain (vector_proxy ptr (e :: ext))).
Proof.
  intros Hz B F C. pose proof (vector_sizes ptr (e :: ext)) as Es.
  pose proof (plain_descs_facts (e :: ext)) as [_ D].
  assert (Et : tl (plain_descs (e :: ext)) = plain_descs ext) by apply plain_tl.
  constructor; cbn [proxy_of kind_of]; unfold sizes; rewrite ?Es; try easy.
  - cbn [vector_proxy p_descs]. intros X. pose proof (plain_length (e :: ext)) as L. rewrite X in L. discriminate.
  - cbn [p_ptr vector_proxy]. lia.
  - apply totals_plain.
  - destruct (positive_or_zero (e :: ext)) as [P|Z]; [right|now left]. cbn zeta.
    inversion P as [|? ? Pe P']; subst. cbn [volume] in B.
    cbn [vector_proxy p_descs p_ptr hd].
    assert (St : steps Plain sz (plain_descs (e :: ext)) = esteps sz ext).
    { unfold steps. rewrite Et. apply plain_steps_exact; [exact Hz|exact P'|nia]. }
    rewrite St, esteps_hd, stored_volume.
    split; [apply esteps_ok, le_refl_list|]. split; [exact P|]. split; [lia|]. split.
    + unfold top, vector_proxy. cbn [p_descs]. destruct (plain_descs (e :: ext)) as [|d ds]; [discriminate|]. destruct D as (_ & D & D').
      cbn [hd]. unfold bytes, offset_to_bytes, mul64. rewrite D', <- w64_mul_l, D, w64_mul_l.
      rewrite w64_small; cbn [volume]; lia.
    + intros is R. rewrite (dot_dense sz e) by (apply in_range_length in R; cbn in R; lia).
      apply C. now apply row_major_lt.
Qed.

(* ---- uses ---- *)

Definition sampled (u : use) : option which :=
  match u with At_ w _ | Load w _ => Some w | _ => None end.

Lemma good_get sz fuel E o w is a : 0 < sz -> good sz fuel E o -> w <> NoCheck ->
  length is = dims o -> check_bounds (sampler_of w) (proxy_of o) 0 is = true -> get true w sz o is = Go a -> E a.
Proof.
  intros Hz G Nc L Ck H.
  assert (Ne : is <> []). { intros ->. pose proof (g_some _ _ _ _ G). unfold dims in L. destruct (p_descs (proxy_of o)); [congruence|discriminate]. }
  assert (L' : length is = length (sizes (proxy_of o))) by (rewrite sizes_length; exact L).
  rewrite (get_spec w sz o is L Ne (good_proper _ _ _ _ G)) in H.
  rewrite (check_bounds_chk _ _ is 0 (sizes (proxy_of o)) eq_refl L') in Ck.
  destruct (forallb (needs w) _) eqn:Nd; [|discriminate]. destruct (match kind_of o with Plain => _ | Strided => _ end); [|discriminate].
  cbn in H. injection H as <-. apply (good_nested sz fuel E); [exact G| |exact Hz].
  destruct w; [now apply eff_default_range|congruence|now apply eff_zero_range|].
  apply needs_clamp in Nd. apply eff_clamp_range; [exact L'|].
  destruct (g_cells _ _ _ _ G) as [Z|(O & P & B & _)].
  { eapply Forall_forall in Nd; [|exact Z]. lia. }
  pose proof (volume_le _ _ O) as V. rewrite steps_last in V.
  assert (Vb : volume (sizes (proxy_of o)) < 2 ^ 64) by nia. clear - P Vb.
  induction P as [|n ns Pn P IH]; [constructor|]. cbn [volume] in Vb. pose proof (volume_pos _ P).
  constructor; [nia|]. apply IH. nia.
Qed.

Lemma finished_traverse sz fuel E o : 0 < sz -> good sz fuel E o ->
  exists l, nested_loop sz fuel o = Go l /\ Forall E l.
Proof.
  intros Hz G. unfold nested_loop. destruct (g_fits _ _ _ _ G) as [F V].
  destruct (g_cells _ _ _ _ G) as [Z|(O & P & B & _ & C)].
  - rewrite traverse_zero; [exists []; easy|exact Z|apply (g_ptr _ _ _ _ G)|exact F].
  - rewrite traverse_dot; [|exact Hz|apply (g_some _ _ _ _ G)|exact O|exact P|exact F|exact B].
    eexists. split; [reflexivity|]. apply Forall_forall. intros a Ia. apply in_map_iff in Ia.
    destruct Ia as (is & <- & Ii). apply C. now apply all_indices_range.
Qed.

Lemma total_w64 sz fuel E o : good sz fuel E o -> w64 (total_size (proxy_of o)) = w64 (volume (sizes (proxy_of o))).
Proof.
  intros G. pose proof (g_totals _ _ _ _ G) as T. pose proof (g_some _ _ _ _ G) as S. unfold total_size, top, sizes.
  destruct (p_descs (proxy_of o)) as [|d ds]; [congruence|]. apply T.
Qed.

Lemma plain_is_nested sz fuel E o : 0 < sz -> good sz fuel E o -> continuous sz o = true ->
  finished (plain_walk sz fuel (proxy_of o)) = nested_loop sz fuel o.
Proof.
  intros Hz G Co. unfold nested_loop, plain_walk. f_equal. destruct (g_fits _ _ _ _ G) as [F V].
  unfold mul64. rewrite <- w64_mul_l, (total_w64 _ _ _ _ G), w64_mul_l.
  destruct (positive_or_zero (sizes (proxy_of o))) as [P|Z].
  - destruct (g_cells _ _ _ _ G) as [Z|(O & _ & B & _ & C)].
    { eapply Forall_forall in P; [|exact Z]. lia. }
    symmetry. apply continuous_traversal; [exact Hz|apply (g_some _ _ _ _ G)|exact O|exact P|exact F|exact B|exact V|].
    apply (continuous_tight sz fuel E); try assumption. intros I. eapply Forall_forall in P; [|exact I]. lia.
  - rewrite volume_zero by exact Z. rewrite traverse_zero; [|exact Z|apply (g_ptr _ _ _ _ G)|exact F].
    change (w64 (0 * sz)) with (mul64 0 sz). apply walk_empty; [apply (g_ptr _ _ _ _ G)|lia].
Qed.

Lemma good_use sz fuel E o u : 0 < sz -> good sz fuel E o -> sampled u <> Some NoCheck ->
  match do_use true sz fuel o u with Go l => Forall E l | Endless => False | _ => True end.
Proof.
  intros Hz G Nc. destruct u as [i|w is|w is| |]; cbn [do_use].
  - unfold element. destruct (p_descs (proxy_of o)) as [|d [|? ?]] eqn:Ed; cbn; try exact I.
    unfold requires. destruct (i <? size (proxy_of o) 0) eqn:Lt; cbn; [|exact I].
    constructor; [|constructor]. change (elem sz (proxy_of o) i) with (nested (kind_of o) sz (proxy_of o) [i]).
    apply (good_nested sz fuel E); [exact G| |exact Hz]. unfold sizes. rewrite Ed. constructor; [|constructor].
    apply N.ltb_lt in Lt. unfold size in Lt. now rewrite Ed in Lt.
  - unfold at_by. destruct (length is =? dims o)%nat eqn:L; cbn; [|exact I]. apply Nat.eqb_eq in L.
    destruct (check_bounds (sampler_of w) (proxy_of o) 0 is) eqn:Ck; cbn; [|exact I].
    assert (Nw : w <> NoCheck) by (intros ->; now apply Nc).
    destruct (get true w sz o is) eqn:Ge; cbn; try exact I.
    + constructor; [|constructor]. eapply good_get; eassumption.
    + assert (Ne : is <> []). { intros ->. pose proof (g_some _ _ _ _ G). unfold dims in L. destruct (p_descs (proxy_of o)); [congruence|discriminate]. }
      rewrite (get_spec w sz o is L Ne (good_proper _ _ _ _ G)) in Ge. destruct (_ && _); discriminate.
  - unfold load_by. destruct (length is =? dims o)%nat eqn:L; cbn; [|exact I]. apply Nat.eqb_eq in L.
    destruct (check_bounds (sampler_of w) (proxy_of o) 0 is) eqn:Ck; [|destruct (s_boundary _); exact I].
    assert (Nw : w <> NoCheck) by (intros ->; now apply Nc).
    destruct (get true w sz o is) eqn:Ge; cbn; try exact I.
    + constructor; [|constructor]. eapply good_get; eassumption.
    + assert (Ne : is <> []). { intros ->. pose proof (g_some _ _ _ _ G). unfold dims in L. destruct (p_descs (proxy_of o)); [congruence|discriminate]. }
      rewrite (get_spec w sz o is L Ne (good_proper _ _ _ _ G)) in Ge. destruct (_ && _); discriminate.
  - unfold plain_loop, requires. destruct (continuous sz o) eqn:Co; cbn; [|exact I].
    rewrite (plain_is_nested _ _ _ _ Hz G Co). destruct (finished_traverse _ _ _ _ Hz G) as (l & -> & H). exact H.
  - destruct (finished_traverse _ _ _ _ Hz G) as (l & -> & H). exact H.
Qed.

(* ---- programs ---- *)

Definition shapes_fit (fuel : nat) (l : list step) : Prop :=
  forall e ext, In (Reshape e ext) l -> volume (e :: ext) < 2 ^ 64 /\ fits fuel (e :: ext).

Lemma good_steps sz fuel E l : 0 < sz -> shapes_fit fuel l -> forall o o', good sz fuel E o ->
  do_steps true sz o l = Go o' -> good sz fuel E o'.
Proof.
  intros Hz. induction l as [|s l IH]; intros Sf o o' G H; cbn [do_steps] in H; [now injection H as <-|].
  destruct (do_step true sz o s) as [o1| | | | |] eqn:S; try discriminate. cbn [then_] in H.
  refine (IH _ _ _ _ H); [intros e ext I; apply Sf; now right|].
  destruct s as [i| |e ext]; cbn [do_step] in S.
  - eapply good_sub; eassumption.
  - injection S as <-. now apply good_view.
  - destruct (Sf e ext (or_introl eq_refl)) as [V F]. eapply good_reshape; eassumption.
Qed.
Lemma step_not_endless sz o s : do_step true sz o s <> Endless.
Proof.
  destruct s as [i| |e ext]; cbn [do_step]; [|discriminate|].
  - unfold subscript, requires. destruct (p_descs _) as [|? [|? ?]]; try discriminate. now destruct (_ && _).
  - unfold reshaped, new_elem, requires. destruct o; [|discriminate].
    destruct (true && _); [discriminate|]. destruct (true && _); [discriminate|]. now destruct (true && _).
Qed.
Lemma steps_not_endless sz l : forall o, do_steps true sz o l <> Endless.
Proof.
  induction l as [|s l IH]; intros o; [discriminate|]. cbn [do_steps].
  pose proof (step_not_endless sz o s). destruct (do_step true sz o s); cbn; try discriminate; [apply IH|congruence].
Qed.

Lemma good_program sz fuel E o l u : 0 < sz -> good sz fuel E o -> shapes_fit fuel l -> sampled u <> Some NoCheck ->
  match program true sz fuel o l u with
  | Go touched => Forall E touched /\ program false sz fuel o l u = Go touched
  | Endless => False
  | _ => True
  end.
Proof.
  intros Hz G Sf Nc. pose proof (agrees_program sz fuel o l u) as A.
  assert (H : match program true sz fuel o l u with Go l => Forall E l | Endless => False | _ => True end).
  { unfold program. pose proof (steps_not_endless sz l o) as Nl.
    destruct (do_steps true sz o l) as [o'| | | | |] eqn:S; cbn [then_]; try easy.
    apply good_use; [exact Hz| |exact Nc]. eapply good_steps; eassumption. }
  destruct (program true sz fuel o l u) eqn:Pr; try easy. split; [exact H|]. destruct A as [A|A]; [discriminate|now symmetry].
Qed.
