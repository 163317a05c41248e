(* C111, C112: where the text of a configuration comes from and goes to. *)
From Coq Require Import String Ascii List Bool Arith NArith ZArith Lia.
From Verif Require Import ConvertModel ConfigModel BackModel TextModel TextSpec TextProofs.
Import ListNotations.
Local Open Scope nat_scope.

(* ---- C111: reading ---- *)
(* all of a good stream that can seek is read, from where it is; the characters by which
   line ends got shorter are NULs at the end, and then the stream has failed *)
Theorem C111_content : forall s t, good s = true -> seekable s = true -> pos s <= length (bytes s) ->
  rest_read (translates s) (skipn (pos s) (bytes s)) t ->
  exists k, length t + k = length (bytes s) - pos s /\
    get_text_stream_content s =
      (t ++ repeat nul k, IStream (bytes s) (length (bytes s)) (0 <? k) (0 <? k) (seekable s) (translates s)).
Proof.
  intros s t G K P R. exists (length (bytes s) - pos s - length t). rewrite content_good, (ahead_rest s t R) by auto.
  assert (A := ahead_shorter s). rewrite (ahead_rest s t R) in A. split; [lia|reflexivity].
Qed.
(* what a stream reads is determined, and it is the rest itself without CR LF in it *)
Theorem C111_read_once : forall tr rest t u, rest_read tr rest t -> rest_read tr rest u -> t = u.
Proof.
  intros [] rest t u H1 H2; cbn in *; [|congruence]. rewrite (lines_unique _ _ H1), (lines_unique _ _ H2). reflexivity.
Qed.
Theorem C111_plain : forall rest t, ~ In cr rest -> lines_read rest t -> t = rest.
Proof.
  intros rest t N H. induction H as [|t u H IH|c t u _ H IH]; [reflexivity|exfalso; apply N; left; reflexivity|].
  f_equal. apply IH. intro X. apply N. right. exact X.
Qed.
Theorem C111_readable : forall tr rest, exists t, rest_read tr rest t.
Proof. intros [] rest; [exists (unix rest); apply unix_lines|exists rest; reflexivity]. Qed.
(* from any other stream nothing is read, and it stays where it is, failed *)
Theorem C111_no_content : forall s, good s = false \/ seekable s = false ->
  fst (get_text_stream_content s) = [] /\ failbit (snd (get_text_stream_content s)) = true /\
  pos (snd (get_text_stream_content s)) = pos s.
Proof. exact content_bad. Qed.
Section Reading.
Context {C : Type}.
Variable json_parse : str -> option C.
Variable xml_parse : str -> option C.
Variable yaml_load : str -> yaml_result C.
Variable ini_parse : str -> option C.
Let rd := @read C json_parse xml_parse yaml_load ini_parse.
(* the text of a string: a document the parser refuses is a null config for json, an
   exception of the parser for yaml and a config_error for xml and ini *)
Theorem C111_outcomes : forall t u, first_part t u ->
  (forall c, json_parse t = Some c -> rd Json (Str t) = Config (Some c)) /\
  (json_parse t = None -> rd Json (Str t) = Config None) /\
  (forall c, yaml_load t = YamlRoot c -> rd Yaml (Str t) = Config (Some c)) /\
  (yaml_load t = YamlOther -> rd Yaml (Str t) = Config None) /\
  (yaml_load t = YamlThrows -> rd Yaml (Str t) = ParserError) /\
  (forall c, xml_parse u = Some c -> rd Xml (Str t) = Config (Some c)) /\
  (xml_parse u = None -> rd Xml (Str t) = ConfigError) /\
  (forall c, ini_parse u = Some c -> rd Ini (Str t) = Config (Some c)) /\
  (ini_parse u = None -> rd Ini (Str t) = ConfigError).
Proof.
  intros t u F. unfold rd, read, json_text, yaml_text. rewrite ini_end.
  destruct (c_text_first xml_parse ini_parse t u F) as [-> ->]. unfold xml_text, ini_text. rewrite !(c_str_none u) by (apply F).
  repeat split; intros; repeat match goal with H : _ = _ |- _ => rewrite H; clear H end; reflexivity.
Qed.
(* json and yaml: a string, a pointer with a length and a stream are read alike, a
   pointer alone up to the first NUL *)
Theorem C111_json_yaml : forall f t, f = Json \/ f = Yaml ->
  (forall more, rd f (Chars (Some (t ++ more)) (Some (length t))) = rd f (Str t)) /\
  (forall s, good s = true -> rest_read (translates s) (skipn (pos s) (bytes s)) t -> rd f (Stream s) = rd f (Str t)) /\
  (forall more, no_nul t -> rd f (Chars (Some (t ++ nul :: more)) None) = rd f (Str t)).
Proof.
  intros f t [-> | ->]; (split; [|split]).
  1, 4: intro more; unfold rd, read; rewrite span_front; reflexivity.
  1, 3: intros s G R; unfold rd, read; rewrite (ahead_rest s t R); reflexivity.
  all: intros more N; unfold rd, read, c_string; rewrite upto_cut by exact N; reflexivity.
Qed.
(* xml and ini: however the text comes, the part before its first NUL is read; NULs in
   the place of shortened line ends do no harm *)
Theorem C111_xml_ini : forall f t u, f = Xml \/ f = Ini -> first_part t u ->
  rd f (Str t) = rd f (Str u) /\
  (forall more, rd f (Chars (Some (t ++ more)) (Some (length t))) = rd f (Str u)) /\
  (forall more, rd f (Chars (Some (u ++ nul :: more)) None) = rd f (Str u)) /\
  (forall s, good s = true -> seekable s = true -> pos s <= length (bytes s) ->
     rest_read (translates s) (skipn (pos s) (bytes s)) t -> rd f (Stream s) = rd f (Str u)).
Proof.
  intros f t u Hf F. destruct (c_text_first xml_parse ini_parse t u F) as [Fx Fi].
  destruct Hf as [-> | ->]; (split; [|split; [|split]]); unfold rd, read.
  - exact Fx.
  - intro more. rewrite span_front. exact Fx.
  - intro more. unfold c_string. rewrite upto_cut by (apply F). reflexivity.
  - intros s G K P R. destruct (stream_text s t G K P R) as [k ->]. apply (c_text_first xml_parse ini_parse _ u (first_pad t u k F)).
  - rewrite !ini_end. exact Fi.
  - intro more. rewrite span_front, ini_end. exact Fi.
  - intro more. rewrite ini_end. unfold c_string. rewrite upto_cut by (apply F). reflexivity.
  - intros s G K P R. destruct (stream_text s t G K P R) as [k ->]. rewrite !ini_end. apply (c_text_first xml_parse ini_parse _ u (first_pad t u k F)).
Qed.
(* a null pointer is an error for xml only; with the length 0 it is an empty text *)
Theorem C111_null : forall f len,
  (f = Xml -> rd f (Chars None len) = ArgumentError) /\
  (f <> Xml -> len = Some 0 -> rd f (Chars None len) = rd f (Str [])) /\
  (f <> Xml -> len <> Some 0 -> rd f (Chars None len) = Undefined).
Proof.
  intros f len. split; [intros ->; reflexivity|]. split.
  - intros N ->. destruct f; try congruence; try reflexivity.
  - intros N L. destruct f, len as [[|n]|]; try congruence; reflexivity.
Qed.
(* a length beyond the bytes that are there, and a pointer alone without NUL *)
Theorem C111_out_of_bounds : forall f b,
  (forall n, length b < n -> rd f (Chars (Some b) (Some n)) = Undefined) /\
  (no_nul b -> rd f (Chars (Some b) None) = Undefined).
Proof.
  intros f b. split.
  - intros n L. assert (E : span (Some b) n = None) by (unfold span; destruct (Nat.leb_spec n (length b)); [lia|reflexivity]).
    destruct f; unfold rd, read; rewrite E; reflexivity.
  - intro N. assert (E : c_string (Some b) = None).
    { unfold c_string. induction b as [|c b IH]; [reflexivity|]. cbn [upto_nul].
      destruct (Ascii.eqb c nul) eqn:E; [apply nul_eqb in E; subst; exfalso; apply N; left; reflexivity|].
      rewrite IH; [reflexivity|]. intro X. apply N. right. exact X. }
    destruct f; unfold rd, read; rewrite E; reflexivity.
Qed.
(* ini from one stream again and again: the first time there is what there is, then
   an empty text *)
Theorem C111_again : forall n s, pos s <= length (bytes s) ->
  ini_reads ini_parse (S n) s = rd Ini (Stream s) :: repeat (rd Ini (Str [])) n.
Proof.
  intros n s P. cbn [ini_reads]. unfold rd at 1, read at 1. assert (A := after_read s P).
  destruct (get_text_stream_content s) as [t s']. cbn [fst snd] in *. f_equal.
  destruct A. rewrite reads_after by assumption. reflexivity.
Qed.
(* a stream that cannot seek is an empty text for ini and xml *)
Theorem C111_pipe : forall f s, f = Xml \/ f = Ini -> good s = false \/ seekable s = false ->
  rd f (Stream s) = rd f (Str []).
Proof.
  intros f s Hf H. destruct (content_bad s H) as [E _]. destruct Hf as [-> | ->]; unfold rd, read; rewrite E; reflexivity.
Qed.
End Reading.
(* so the formats do not read streams alike: of a pipe json reads all, ini nothing *)
Theorem C111_streams_alike_refuted : exists s, good s = true /\ exists (parse : str -> option str),
  let rd := read parse parse (fun t => YamlRoot t) parse in
  rd Json (Stream s) = Config (Some (chars "a=1")) /\ rd Ini (Stream s) = Config (Some []) /\
  rd Ini (Str (chars "a=1")) = Config (Some (chars "a=1")).
Proof. exists (IStream (chars "a=1") 0 false false false false). split; [reflexivity|]. exists Some. vm_compute. repeat split. Qed.
(* nor do strings with a NUL *)
Theorem C111_strings_alike_refuted : exists t, exists (parse : str -> option str),
  let rd := read parse parse (fun t => YamlRoot t) parse in rd Json (Str t) <> rd Ini (Str t).
Proof. exists (chars "a" ++ [nul] ++ chars "b"). exists Some. vm_compute. discriminate. Qed.
Example C111_ex :
  let s := IStream (chars "??a" ++ [cr; lf] ++ chars "b" ++ [cr; lf]) 2 false false true true in
  rest_read true (skipn 2 (bytes s)) (chars "a" ++ [lf] ++ chars "b" ++ [lf]) /\
  fst (get_text_stream_content s) = chars "a" ++ [lf] ++ chars "b" ++ [lf; nul; nul] /\
  failbit (snd (get_text_stream_content s)) = true /\
  let rd := read Some Some (fun t => YamlRoot t) Some in
  rd Xml (Stream s) = Config (Some (chars "a" ++ [lf] ++ chars "b" ++ [lf])) /\
  ini_reads Some 3 s = [rd Xml (Stream s); Config (Some []); Config (Some [])].
Proof.
  cbv zeta. split; [|vm_compute; repeat split]. cbn. apply LOther; [intros [H _]; discriminate|]. apply LPair.
  apply LOther; [intros [H _]; discriminate|]. apply LPair. constructor.
Qed.
Example C111_pointer_ex :
  let rd := read Some Some (fun t => YamlRoot t) Some in
  let b := chars "ab" ++ [nul] ++ chars "cd" in
  rd Json (Chars (Some b) None) = Config (Some (chars "ab")) /\
  rd Json (Chars (Some b) (Some 4)) = Config (Some (chars "ab" ++ [nul] ++ chars "c")) /\
  rd Ini (Chars (Some b) (Some 4)) = Config (Some (chars "ab")) /\
  rd Xml (Chars (Some b) (Some 1)) = Config (Some (chars "a")) /\
  rd Xml (Chars None None) = ArgumentError.
Proof. vm_compute. repeat split. Qed.
Print Assumptions C111_content.
Print Assumptions C111_read_once.
Print Assumptions C111_plain.
Print Assumptions C111_readable.
Print Assumptions C111_no_content.
Print Assumptions C111_outcomes.
Print Assumptions C111_json_yaml.
Print Assumptions C111_xml_ini.
Print Assumptions C111_null.
Print Assumptions C111_out_of_bounds.
Print Assumptions C111_again.
Print Assumptions C111_pipe.
Print Assumptions C111_streams_alike_refuted.
Print Assumptions C111_strings_alike_refuted.

(* ---- C112: writing ---- *)
Section Writing.
Variable scalar : json -> str.
Variable quoted : str -> str.
Variable printable : json -> bool.
Let text := write_string scalar quoted printable.
Let stream := write_stream scalar quoted printable.
(* with an indent and blanks to fill a stream gets the same text as a string *)
Theorem C112_same_text : forall c o indent ordered a, (0 < indent < 2 ^ 31)%N -> fill o = space ->
  text c indent ordered = Some a ->
  stream c o indent ordered = (OStream (width o) (fill o) (out o ++ a), true).
Proof.
  intros c [w f t] indent ordered a [L U] F. cbn in F. subst f. unfold text, stream, write_string, write_stream.
  destruct (printable (json_write ordered c)); [|discriminate]. intro E. injection E as <-.
  unfold dump_string, dump_stream. cbn [width fill out].
  destruct (N.ltb_spec indent (2 ^ 31)); [|lia]. destruct (N.ltb_spec 0 indent); [reflexivity|lia].
Qed.
(* both are the tokens of the document, with white space before them, or with the
   character the stream fills with *)
Theorem C112_same_tokens : forall c o indent ordered,
  printable (json_write ordered c) = true ->
  (exists a, text c indent ordered = Some a /\ woven white (tokens scalar quoted (json_write ordered c)) a) /\
  (exists b, stream c o indent ordered = (OStream (width o) (fill o) (out o ++ b), true) /\
     woven (fun x => white x \/ x = fill o) (tokens scalar quoted (json_write ordered c)) b).
Proof.
  intros c [w f t] indent ordered Pr. unfold text, stream, write_string, write_stream. rewrite Pr. split.
  - eexists. split; [reflexivity|]. unfold dump_string. destruct (indent <? 2 ^ 31)%N; apply dump_woven; intro H; try discriminate.
    split; [left|split; right]; reflexivity.
  - eexists. split; [reflexivity|]. cbn [width fill out]. apply dump_woven. intros _.
    split; [left; left; reflexivity|split; [left; right; reflexivity|right; reflexivity]].
Qed.
(* without an indent a stream gets the tokens and nothing else; a string does for
   indents that are negative as an int *)
Theorem C112_compact : forall c o ordered, printable (json_write ordered c) = true ->
  let all := concat (tokens scalar quoted (json_write ordered c)) in
  stream c o 0 ordered = (OStream (width o) (fill o) (out o ++ all), true) /\
  (forall indent, (2 ^ 31 <= indent < 2 ^ 32)%N -> text c indent ordered = Some all).
Proof.
  intros c [w f t] ordered Pr. cbv zeta. unfold text, stream, write_string, write_stream. rewrite Pr. split.
  - f_equal. unfold dump_stream. cbn [width fill out]. f_equal. f_equal. apply woven_tight, dump_woven. discriminate.
  - intros indent L. unfold dump_string. destruct (N.ltb_spec indent (2 ^ 31)); [lia|].
    f_equal. apply woven_tight, dump_woven. discriminate.
Qed.
(* a string that cannot be printed is an exception either way, and the width of the
   stream is lost *)
Theorem C112_unprintable : forall c o indent ordered, printable (json_write ordered c) = false ->
  text c indent ordered = None /\ snd (stream c o indent ordered) = false /\ width (fst (stream c o indent ordered)) = 0%N.
Proof. intros c o indent ordered Pr. unfold text, stream, write_string, write_stream. rewrite Pr. repeat split. Qed.
(* xml: the text is put into the stream with its width *)
Theorem C112_padded : forall o t, exists pad, out (put_text o t) = out o ++ pad ++ t /\ Forall (eq (fill o)) pad /\
  (N.of_nat (length (pad ++ t)) = N.max (width o) (N.of_nat (length t))) /\ width (put_text o t) = 0%N.
Proof.
  intros o t. exists (repeat (fill o) (N.to_nat (width o) - length t)). split; [reflexivity|]. split.
  - apply Forall_forall. intros x X. apply repeat_spec in X. auto.
  - split; [|reflexivity]. rewrite app_length, repeat_length. lia.
Qed.
End Writing.
Definition sample := Conf KOrdered [(chars "b", Some (VInt 7)); (chars "a", Some (VConf (Some (Conf KArray [([], Some (VBool true)); ([], Some (VBool false))]))))].
Definition plain_scalar (j : json) : str :=
  match j with JInt _ | JUInt _ => chars "7" | JBool true => chars "true" | JBool false => chars "false" | _ => chars "null" end.
Definition plain_quoted (s : str) : str := ["034"%char] ++ s ++ ["034"%char].
(* so with the default indent of 0 the two are different texts *)
Theorem C112_default_refuted : exists c a b,
  write_string plain_scalar plain_quoted (fun _ => true) c 0 None = Some a /\
  write_stream plain_scalar plain_quoted (fun _ => true) c (OStream 0 space []) 0 None = (OStream 0 space b, true) /\
  In lf a /\ ~ In lf b.
Proof.
  exists (Some sample). eexists. eexists. split; [vm_compute; reflexivity|]. split; [vm_compute; reflexivity|].
  split; [right; left; reflexivity|]. intro H. cbn in H. repeat (destruct H as [H|H]; [discriminate|]). exact H.
Qed.
(* and a stream that fills with something else gets a text with that in it, which is
   not a document any more *)
Theorem C112_fill_refuted : exists c o b,
  write_stream plain_scalar plain_quoted (fun _ => true) c o 2 None = (OStream (width o) (fill o) (out o ++ b), true) /\
  b = chars "[" ++ [lf] ++ chars "**true," ++ [lf] ++ chars "**7" ++ [lf] ++ chars "]".
Proof.
  exists (Some (Conf KArray [([], Some (VBool true)); ([], Some (VInt 7))])), (OStream 5 "*" []). eexists. split; reflexivity.
Qed.
Example C112_ex :
  write_string plain_scalar plain_quoted (fun _ => true) (Some sample) 2 None =
    Some (chars "{" ++ [lf] ++ chars "  ""b"": 7," ++ [lf] ++ chars "  ""a"": [" ++ [lf] ++ chars "    true," ++ [lf] ++
          chars "    false" ++ [lf] ++ chars "  ]" ++ [lf] ++ chars "}") /\
  out (fst (write_stream plain_scalar plain_quoted (fun _ => true) (Some sample) (OStream 9 space []) 0 None)) =
    chars "{""b"":7,""a"":[true,false]}" /\
  tokens plain_scalar plain_quoted (json_write None (Some sample)) =
    map chars ["{"; """b"""; ":"; "7"; ","; """a"""; ":"; "["; "true"; ","; "false"; "]"; "}"]%string /\
  out (put_text (OStream 6 "*" (chars "x")) (chars "<a/>")) = chars "x**<a/>".
Proof. vm_compute. repeat split. Qed.
Print Assumptions C112_same_text.
Print Assumptions C112_same_tokens.
Print Assumptions C112_compact.
Print Assumptions C112_unprintable.
Print Assumptions C112_padded.
Print Assumptions C112_default_refuted.
Print Assumptions C112_fill_refuted.
