(* Where the text of a configuration comes from and goes to: the overloads of read
   (json/json.cpp 19-55, xml/xml.cpp 19-52, yaml/yaml.cpp 17-46, ini/ini.cpp 22-43),
   get_text_stream_content (utility.cpp 140-149) and the overloads of write
   (json.cpp 107-128, xml.cpp 109-123, yaml.cpp 92-107); all in
   /repo/modules/config/yato/config.

   The parsers are functions of the bytes they are given, tinyxml2 and inih of those up
   to the first NUL.  The text nlohmann::json
   prints is that of its serializer, where texts of scalars and quoted strings are
   parameters.

   A stream is its bytes, the position, its state and whether it can seek, as a file or
   a string stream can and a pipe cannot; in a text stream of Windows CR LF counts two
   bytes and is read as LF.  json and yaml are modelled for good streams.  What reading a
   stream to its end leaves of its state is modelled for xml and ini. *)
From Coq Require Import String Ascii List Bool Arith NArith ZArith.
From Verif Require Import ConvertModel ConfigModel BackModel.
Import ListNotations.
Local Open Scope nat_scope.

Definition lf : ascii := "010".
Definition cr : ascii := "013".

(* ---- streams ---- *)
Record istream := IStream {
  bytes : str;
  pos : nat;
  eofbit : bool;
  failbit : bool;
  seekable : bool;
  translates : bool            (* CR LF is read as LF *)
}.
Definition good (s : istream) : bool := negb (eofbit s) && negb (failbit s).
Definition with_state (s : istream) (p : nat) (e f : bool) : istream :=
  IStream (bytes s) p e f (seekable s) (translates s).
(* what is read from here on *)
Fixpoint unix (t : str) : str :=
  match t with
  | [] => []
  | a :: r =>
      match r with
      | b :: r' => if Ascii.eqb a cr && Ascii.eqb b lf then lf :: unix r' else a :: unix r
      | [] => [a]
      end
  end.
Definition ahead (s : istream) : str :=
  let t := skipn (pos s) (bytes s) in if translates s then unix t else t.

(* the sentry of an unformatted input function *)
Definition sentry (s : istream) : istream := if good s then s else with_state s (pos s) (eofbit s) true.
(* std::istream::tellg; None is -1 *)
Definition tellg (s : istream) : option nat * istream :=
  let s := sentry s in
  (if failbit s then None else if seekable s then Some (pos s) else None, s).
(* seekg to a position or to the end: eofbit is cleared first *)
Definition seekg (s : istream) (p : option nat) : istream :=
  let s := sentry (with_state s (pos s) false (failbit s)) in
  if failbit s then s
  else match p with
       | Some q => if seekable s then with_state s q (eofbit s) (failbit s) else with_state s (pos s) (eofbit s) true
       | None => with_state s (pos s) (eofbit s) true
       end.
Definition seek_end (s : istream) : istream := seekg s (Some (length (bytes s))).
(* std::istream::read into a buffer of n NULs *)
Definition read_n (s : istream) (n : nat) : str * istream :=
  let s := sentry s in
  if good s then
    let t := ahead s in
    if n <=? length t
    then (firstn n t, with_state s (if n =? length t then length (bytes s) else pos s + n) (eofbit s) (failbit s))
    else (t ++ repeat nul (n - length t), with_state s (length (bytes s)) true true)
  else (repeat nul n, s).

(* utility.cpp 140-149; -1 - -1 is 0, and no position is behind the end *)
Definition get_text_stream_content (s : istream) : str * istream :=
  let '(start, s) := tellg s in
  let s := seek_end s in
  let '(stop, s) := tellg s in
  let len := match start, stop with Some a, Some b => b - a | _, _ => 0 end in
  let s := seekg s start in
  read_n s len.

(* ---- reading ---- *)
(* a char pointer: null, or the bytes that are there to be read *)
Definition pointer := option str.
(* the characters up to a NUL; None: there is none, and the reader goes on *)
Fixpoint upto_nul (b : str) : option str :=
  match b with
  | [] => None
  | c :: t => if Ascii.eqb c nul then Some [] else option_map (cons c) (upto_nul t)
  end.
Inductive outcome (C : Type) :=
| Config (c : option C)       (* None is a null config *)
| ConfigError | ArgumentError
| ParserError                 (* an exception of the parser *)
| Undefined.
Arguments Config {C}. Arguments ConfigError {C}. Arguments ArgumentError {C}. Arguments ParserError {C}. Arguments Undefined {C}.
Definition of_bytes {C} (b : option str) (f : str -> outcome C) : outcome C :=
  match b with Some t => f t | None => Undefined end.
(* the bytes [p, p + len) *)
Definition span (p : pointer) (len : nat) : option str :=
  match p with
  | Some b => if len <=? length b then Some (firstn len b) else None
  | None => if len =? 0 then Some [] else None
  end.
Definition c_string (p : pointer) : option str := match p with Some b => upto_nul b | None => None end.

Inductive yaml_result (C : Type) := YamlThrows | YamlOther | YamlRoot (c : C).
Arguments YamlThrows {C}. Arguments YamlOther {C}. Arguments YamlRoot {C}.
Inductive format := Json | Xml | Yaml | Ini.
(* len: None is nolength *)
Inductive source := Chars (p : pointer) (len : option nat) | Str (s : str) | Stream (s : istream).
Section Read.
Context {C : Type}.
Variable json_parse : str -> option C.             (* None: discarded *)
Variable xml_parse : str -> option C.              (* None: Error() *)
Variable yaml_load : str -> yaml_result C.
Variable ini_parse : str -> option C.              (* None: a result other than 0 *)

(* json.cpp 19-29 *)
Definition json_text (t : str) : outcome C := Config (json_parse t).
(* xml.cpp 19-27 *)
Definition xml_text (t : str) : outcome C :=
  match xml_parse (c_str t) with Some c => Config (Some c) | None => ConfigError end.
(* yaml.cpp 17-26 *)
Definition yaml_text (t : str) : outcome C :=
  match yaml_load t with YamlThrows => ParserError | YamlOther => Config None | YamlRoot c => Config (Some c) end.
(* ini.cpp 28-33 with ini_parser.cpp 40-47 *)
Definition ini_text (t : str) : outcome C :=
  match ini_parse (c_str t) with Some c => Config (Some c) | None => ConfigError end.

Definition read (f : format) (src : source) : outcome C :=
  match f, src with
  | Json, Chars p (Some n) => of_bytes (span p n) json_text            (* json.cpp 43-46 *)
  | Json, Chars p None => of_bytes (c_string p) json_text
  | Json, Str s => json_text s                                         (* 48-51 *)
  | Json, Stream s => json_text (ahead s)                              (* 53-56 *)
  | Xml, Chars None _ => ArgumentError                                 (* xml.cpp 29-33 *)
  | Xml, Chars p (Some n) => of_bytes (span p n) xml_text              (* 34-41 *)
  | Xml, Chars p None => of_bytes (c_string p) xml_text
  | Xml, Str s => xml_text s                                           (* 44-47 *)
  | Xml, Stream s => xml_text (fst (get_text_stream_content s))        (* 49-52 *)
  | Yaml, Chars p (Some n) => of_bytes (span p n) yaml_text            (* yaml.cpp 28-36 *)
  | Yaml, Chars p None => of_bytes (c_string p) yaml_text
  | Yaml, Str s => yaml_text s
  | Yaml, Stream s => yaml_text (ahead s)
  | Ini, Chars p (Some n) => of_bytes (span p n) ini_text              (* ini.cpp 22-33 *)
  | Ini, Chars p None => of_bytes (c_string p) ini_text
  | Ini, Str s => of_bytes (c_string (Some (s ++ [nul]))) ini_text     (* 35-38: its c_str() *)
  | Ini, Stream s =>                                                   (* 40-43 *)
      of_bytes (c_string (Some (fst (get_text_stream_content s) ++ [nul]))) ini_text
  end.
(* read(is) of ini again and again *)
Fixpoint ini_reads (n : nat) (s : istream) : list (outcome C) :=
  match n with
  | O => []
  | S m => let '(t, s') := get_text_stream_content s in
           of_bytes (c_string (Some (t ++ [nul]))) ini_text :: ini_reads m s'
  end.
End Read.

(* ---- writing ---- *)
Definition space : ascii := " ".
Record ostream := OStream { width : N; fill : ascii; out : str }.
Section Write.
Variable scalar : json -> str.             (* numbers and words *)
Variable quoted : str -> str.              (* an escaped string with its quotes *)
Definition spread (sep : str) (l : list str) : str :=
  match l with [] => [] | a :: r => a ++ flat_map (fun b => sep ++ b) r end.
(* nlohmann::detail::serializer::dump *)
Fixpoint dump (pretty : bool) (step : N) (f : ascii) (cur : N) (j : json) : str :=
  let inner := (cur + step)%N in
  let margin n := if pretty then repeat f (N.to_nat n) else [] in
  let line := if pretty then [lf] else [] in
  match j with
  | JArr [] => chars "[]"
  | JArr l =>
      chars "[" ++ line ++ spread (chars "," ++ line) (map (fun x => margin inner ++ dump pretty step f inner x) l) ++
      line ++ margin cur ++ chars "]"
  | JObj [] => chars "{}"
  | JObj l =>
      chars "{" ++ line ++
      spread (chars "," ++ line)
        (map (fun e => match e with
                       | (k, x) => margin inner ++ quoted k ++ (if pretty then chars ": " else chars ":") ++ dump pretty step f inner x
                       end) l) ++
      line ++ margin cur ++ chars "}"
  | JStr s => quoted s
  | _ => scalar j
  end.
(* basic_json::dump(int indent): uint32_t is converted to int *)
Definition dump_string (indent : N) (j : json) : str :=
  if (indent <? 2 ^ 31)%N then dump true indent space 0 j else dump false 0 space 0 j.
(* operator<<(std::ostream&, const basic_json&) *)
Definition dump_stream (o : ostream) (j : json) : ostream :=
  let n := width o in
  OStream 0 (fill o) (out o ++ dump (0 <? n)%N (if (0 <? n)%N then n else 0%N) (fill o) 0 j).
(* a string that dump cannot print, as it is not UTF-8, is an exception *)
Variable printable : json -> bool.
(* json.cpp 107-115; None: the exception *)
Definition write_string (c : option conf) (indent : N) (ordered : option bool) : option str :=
  let j := json_write ordered c in if printable j then Some (dump_string indent j) else None.
(* json.cpp 117-128; the flag: no exception.  operator<< sets the width to 0 first;
   what was printed before an exception is not modelled *)
Definition write_stream (c : option conf) (o : ostream) (indent : N) (ordered : option bool) : ostream * bool :=
  let j := json_write ordered c in
  let backup := width o in
  let o := OStream indent (fill o) (out o) in
  if printable j
  then let o := dump_stream o j in (OStream backup (fill o) (out o), true)
  else (OStream 0 (fill o) (out o), false).
End Write.
(* os << text, as xml.cpp 120-123 does: padded on the left to the width *)
Definition put_text (o : ostream) (t : str) : ostream :=
  OStream 0 (fill o) (out o ++ repeat (fill o) (N.to_nat (width o) - length t) ++ t).
(* os.write, as YAML::Emitter with a stream (yaml.cpp 100-106) does *)
Definition put_bytes (o : ostream) (t : str) : ostream := OStream (width o) (fill o) (out o ++ t).
