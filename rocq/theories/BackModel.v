(* The back ends for json, xml, yaml and ini documents, and the writers of the
   first three: /repo/modules/config/yato/config.

   A back end is modelled by what its virtual functions answer
   (config_backend.h:538-570); the handle of a value is the place in the document
   it points to.  Parsing and printing of text belongs to other libraries
   (nlohmann::json, tinyxml2, yaml-cpp, inih) and is not modelled in general;
   [reparse_...] below states what a document becomes by printing and parsing it,
   as far as the library defines it.

   Simplifications: a release build (YATO_REQUIRES does nothing, narrow_cast
   wraps); exceptions of memory allocation left out; doubles are bit patterns;
   nodes of yaml are all defined, as they are in a loaded document. *)
From Coq Require Import String Ascii List Bool Arith NArith ZArith.
From Verif Require Import ConvertModel ConfigModel.
Import ListNotations.
Local Open Scope nat_scope.

(* ---- the interface ---- *)
Inductive found (V : Type) := Found (i : nat) (v : V) | NotFound | Crash.
Arguments Found {V}. Arguments NotFound {V}. Arguments Crash {V}.

Record backend (V : Type) := Backend {
  b_size : nat;                           (* do_size *)
  b_at : nat -> option (str * V);         (* do_find(size_t); None: a null value *)
  b_find : str -> found V;                (* do_find(std::string) *)
  b_keys : list str;                      (* do_enumerate_keys *)
  b_assoc : bool;                         (* do_has_property *)
  b_multi : bool;
  b_ordered : bool
}.
Arguments b_size {V}. Arguments b_at {V}. Arguments b_find {V}. Arguments b_keys {V}.
Arguments b_assoc {V}. Arguments b_multi {V}. Arguments b_ordered {V}.

(* stored_variant, config_backend.h:248-256 *)
Inductive stored (V : Type) := SNone | SInt (z : Z) | SReal (bits : N) | SBool (b : bool) | SStr (s : str) | SConf (v : V).
Arguments SNone {V}. Arguments SInt {V}. Arguments SReal {V}. Arguments SBool {V}. Arguments SStr {V}. Arguments SConf {V}.

(* config_backend::do_enumerate_keys, config_backend.cpp:35-48 *)
Definition default_keys {V} (assoc : bool) (size : nat) (at_ : nat -> option (str * V)) : list str :=
  if assoc then map (fun i => match at_ i with Some (k, _) => k | None => [] end) (seq 0 size) else [].

(* linear search *)
Fixpoint search {K V} (p : K -> bool) (i : nat) (l : list (K * V)) : found V :=
  match l with
  | [] => NotFound
  | (k, v) :: t => if p k then Found i v else search p (S i) t
  end.

(* ---- json ---- *)
(* nlohmann::basic_json; the members of an object in the order of iteration *)
Inductive json :=
  | JNull | JInt (z : Z) | JUInt (n : N) | JFloat (bits : N) | JStr (s : str) | JBool (b : bool)
  | JArr (l : list json) | JObj (l : list (str * json)).

(* basic_json::size, which is 1 for scalars, and the sequence of iteration *)
Definition json_items (j : json) : list (str * json) :=
  match j with
  | JNull => []
  | JArr l => map (fun x => ([], x)) l
  | JObj l => l
  | _ => [([], j)]
  end.
Definition is_object (j : json) : bool := match j with JObj _ => true | _ => false end.
Definition is_array (j : json) : bool := match j with JArr _ => true | _ => false end.

(* json/private/json_config.cpp:34-87 *)
Definition json_backend (ordered : bool) (j : json) : backend json :=
  let at_ i := nth_error (json_items j) i in
  {| b_size := length (json_items j);
     b_at := at_;
     b_find := fun name => if is_object j then search (seqb name) 0 (json_items j) else NotFound;
     b_keys := default_keys (is_object j) (length (json_items j)) at_;
     b_assoc := is_object j;
     b_multi := false;
     b_ordered := ordered || is_array j |}.
(* int64_t of an uint64_t *)
Definition wrap64 (n : N) : Z := ((Z.of_N n + 2 ^ 63) mod 2 ^ 64 - 2 ^ 63)%Z.
(* json/private/json_value.cpp:44-78 *)
Definition json_get (j : json) : stored json :=
  match j with
  | JInt z => SInt z
  | JUInt n => SInt (wrap64 n)
  | JFloat b => SReal b
  | JStr s => SStr s
  | JBool b => SBool b
  | JArr _ | JObj _ => SConf j
  | JNull => SNone
  end.

(* object_t::emplace: std::map of nlohmann::json, the vector of ordered_map; an
   existing member stays *)
Fixpoint emplace {V} (ordered : bool) (k : str) (v : V) (l : list (str * V)) : list (str * V) :=
  match l with
  | [] => [(k, v)]
  | (k', v') :: t =>
      if ordered then (if seqb k' k then l else (k', v') :: emplace ordered k v t)
      else match scmp k k' with
           | Lt => (k, v) :: l
           | Eq => l
           | Gt => (k', v') :: emplace ordered k v t
           end
  end.
Definition emplace_all {V} (ordered : bool) (l : list (str * V)) : list (str * V) :=
  fold_left (fun acc e => emplace ordered (fst e) (snd e) acc) l [].
Definition make_object (ordered : bool) (l : list (str * json)) : json := JObj (emplace_all ordered l).

(* json/json.cpp:61-103: put and to_json_.  entry.value<...>() of a manual value of
   that type is the value *)
Fixpoint to_json (ordered : bool) (c : conf) : json :=
  match c with
  | Conf k es =>
      let js := map (fun e => match e with
                              | (key, s) =>
                                  (key, match s with
                                        | None => JNull
                                        | Some (VInt z) => JInt z
                                        | Some (VReal b) => JFloat b
                                        | Some (VBool b) => JBool b
                                        | Some (VStr s) => JStr s
                                        | Some (VConf (Some c')) => to_json ordered c'
                                        | Some (VConf None) => JNull
                                        end)
                              end) es in
      if is_assoc k then make_object ordered js else JArr (map snd js)
  end.
(* write: json/json.cpp:107-128 *)
Definition json_write (ordered : option bool) (c : option conf) : json :=
  match c with
  | None => JNull
  | Some c' =>
      let o := match ordered with Some o => o | None => is_assoc (ckind c') && is_ordered (ckind c') end in
      to_json o c'
  end.

(* dump, then parse by nlohmann::json or ordered_json: a number without sign becomes
   unsigned, infinities and NaN null, members go into the object of the reader;
   None: dump throws for a string that is not valid UTF-8.  A null document or a
   scalar is a json_config as well; a discarded one, which dump never makes, is
   not modelled *)
Definition finite (bits : N) : bool := negb ((bits / 2 ^ 52) mod 2 ^ 11 =? 2047)%N.
Section Text.
Variable utf8 : str -> bool.
Definition guard {A} (b : bool) (x : option A) : option A := if b then x else None.
Fixpoint opt_all {A} (l : list (option A)) : option (list A) :=
  match l with
  | [] => Some []
  | None :: _ => None
  | Some x :: t => match opt_all t with Some y => Some (x :: y) | None => None end
  end.
Fixpoint reparse_json (ordered : bool) (j : json) : option json :=
  match j with
  | JNull => Some JNull
  | JInt z => Some (if (z <? 0)%Z then JInt z else JUInt (Z.to_N z))
  | JUInt n => Some (JUInt n)
  | JFloat b => Some (if finite b then JFloat b else JNull)
  | JStr s => guard (utf8 s) (Some (JStr s))
  | JBool b => Some (JBool b)
  | JArr l => option_map JArr (opt_all (map (reparse_json ordered) l))
  | JObj l =>
      option_map (make_object ordered)
        (opt_all (map (fun e => match e with
                                | (k, v) => guard (utf8 k) (option_map (pair k) (reparse_json ordered v))
                                end) l))
  end.
End Text.

(* ---- xml ---- *)
(* an element: its name, the attribute "value", what GetText gives, and the child
   elements *)
Inductive xml := Elem (name : str) (attr text : option str) (children : list xml).
Definition x_name (e : xml) : str := match e with Elem n _ _ _ => n end.
Definition x_attr (e : xml) : option str := match e with Elem _ a _ _ => a end.
Definition x_text (e : xml) : option str := match e with Elem _ _ t _ => t end.
Definition x_children (e : xml) : list xml := match e with Elem _ _ _ c => c end.

(* xml/private/xml_config.cpp:17-35: from the first child to the last *)
Fixpoint visit_children (l : list xml) : list xml :=
  match l with
  | [] => []
  | [last] => [last]
  | first :: t => first :: visit_children t
  end.
(* xml_config.cpp:38-90; None: a document without a root element, whose m_element
   is null; b_find then dereferences it *)
Definition xml_backend (e : option xml) : backend xml :=
  let m_children := match e with Some e' => visit_children (x_children e') | None => [] end in
  let at_ i := option_map (fun c => (x_name c, c)) (nth_error m_children i) in
  {| b_size := length m_children;
     b_at := at_;
     b_find := fun name =>
       match e with
       | Some e' => search (seqb name) 0 (map (fun c => (x_name c, c)) (x_children e'))
       | None => Crash
       end;
     b_keys := default_keys true (length m_children) at_;
     b_assoc := true;
     b_multi := true;
     b_ordered := true |}.
(* xml/private/xml_value.cpp:15-32: m_text of the constructor *)
Definition xml_text (e : xml) : option str :=
  match x_children e with
  | [] => match x_attr e with Some a => Some a | None => x_text e end
  | _ => None
  end.
(* xml_value.cpp:36-63 *)
Definition xml_get (e : xml) : stored xml :=
  match xml_text e with
  | Some _ =>
      match x_attr e with
      | Some a => SStr a
      | None => match x_text e with Some t => SStr t | None => SNone end
      end
  | None => SConf e
  end.

(* const char * of a std::string: up to the first NUL *)
Fixpoint c_str (s : str) : str :=
  match s with
  | [] => []
  | c :: t => if Ascii.eqb c nul then [] else c :: c_str t
  end.
Section XmlWrite.
Variable real_text : N -> str.           (* tinyxml2 prints doubles with "%.17g" *)
Definition bool_text (b : bool) : str := chars (if b then "true" else "false").
(* xml/xml.cpp:54-72 *)
Definition xml_key (assoc : bool) (key : str) : str := if assoc then c_str key else chars "i".
Definition xml_scalar (text_value : bool) (key : str) (s : str) : xml :=
  if text_value then Elem key None (Some s) [] else Elem key (Some s) None [].
(* xml/xml.cpp:74-107 fill_xml_element_: the new child elements *)
Fixpoint to_xml (text_value : bool) (c : conf) : list xml :=
  match c with
  | Conf k es =>
      map (fun e => match e with
                    | (key, s) =>
                        let name := xml_key (is_assoc k) key in
                        match s with
                        | None => Elem name None None []
                        | Some (VInt z) => xml_scalar text_value name (int_to_string z)
                        | Some (VReal b) => xml_scalar text_value name (real_text b)
                        | Some (VBool b) => xml_scalar text_value name (bool_text b)
                        | Some (VStr s) => xml_scalar text_value name (c_str s)
                        | Some (VConf (Some c')) => Elem name None None (to_xml text_value c')
                        | Some (VConf None) => Elem name None None []
                        end
                    end) es
  end.
(* xml/xml.cpp:109-118 *)
Definition xml_write (text_value : bool) (root : str) (c : option conf) : xml :=
  Elem (c_str root) None None (match c with Some c' => to_xml text_value c' | None => [] end).
End XmlWrite.

(* printing and parsing by tinyxml2: line ends become LF (StrPair::GetStr), text of
   white space only is dropped (XMLDocument::Identify); None: a name that is not
   one does not parse.  xml_name is true of names only *)
Fixpoint newlines (s : str) : str :=
  match s with
  | [] => []
  | c :: t =>
      if Ascii.eqb c "013" then
        match t with
        | d :: t' => if Ascii.eqb d "010" then "010"%char :: newlines t' else "010"%char :: newlines t
        | [] => ["010"%char]
        end
      else if Ascii.eqb c "010" then
        match t with
        | d :: t' => if Ascii.eqb d "013" then "010"%char :: newlines t' else "010"%char :: newlines t
        | [] => ["010"%char]
        end
      else c :: newlines t
  end.
Definition kept_text (t : option str) : option str :=
  match t with
  | Some s => if forallb is_space s then None else Some (newlines s)
  | None => None
  end.
Section XmlText.
Variable xml_name : str -> bool.
Fixpoint reparse_xml (e : xml) : option xml :=
  match e with
  | Elem n a t l =>
      guard (xml_name n)
        (option_map (Elem n (option_map newlines a) (kept_text t)) (opt_all (map reparse_xml l)))
  end.
End XmlText.

(* ---- yaml ---- *)
Inductive yaml := YNull | YScalar (s : str) | YSeq (l : list yaml) | YMap (l : list (yaml * yaml)).
(* Node::Scalar, empty for other nodes *)
Definition scalar (y : yaml) : str := match y with YScalar s => s | _ => [] end.
Definition yaml_items (y : yaml) : list (str * yaml) :=
  match y with
  | YSeq l => map (fun x => ([], x)) l
  | YMap l => map (fun e => (scalar (fst e), snd e)) l
  | _ => []
  end.
Definition is_map (y : yaml) : bool := match y with YMap _ => true | _ => false end.
Definition is_seq (y : yaml) : bool := match y with YSeq _ => true | _ => false end.
(* yaml/private/yaml_config.cpp:15-96; the constructor throws for other nodes *)
Definition yaml_backend (y : yaml) : option (backend yaml) :=
  if is_map y || is_seq y then
    Some {| b_size := length (yaml_items y);
            b_at := fun i => nth_error (yaml_items y) i;
            b_find := fun name => if is_map y then search (seqb name) 0 (yaml_items y) else NotFound;
            b_keys := if is_map y then map fst (yaml_items y) else [];
            b_assoc := is_map y;
            b_multi := false;
            b_ordered := is_seq y |}
  else None.
(* yaml/private/yaml_value.cpp:21-61: null is an empty map *)
Definition yaml_get (y : yaml) : stored yaml :=
  match y with
  | YScalar s => SStr s
  | YMap _ | YSeq _ => SConf y
  | YNull => SConf (YMap [])
  end.
(* node[key] = val: the first pair with that key, else a new one *)
Fixpoint yaml_assign (k : str) (v : yaml) (l : list (yaml * yaml)) : list (yaml * yaml) :=
  match l with
  | [] => [(YScalar k, v)]
  | (k', v') :: t => if seqb (scalar k') k then (k', v) :: t else (k', v') :: yaml_assign k v t
  end.
Section YamlWrite.
Variable real_text : N -> str.
(* yaml/yaml.cpp:49-90 put_ and to_yaml_ *)
Fixpoint to_yaml (c : conf) : yaml :=
  match c with
  | Conf k es =>
      let ys := map (fun e => match e with
                              | (key, s) =>
                                  (key, match s with
                                        | None => YNull
                                        | Some (VInt z) => YScalar (int_to_string z)
                                        | Some (VReal b) => YScalar (real_text b)
                                        | Some (VBool b) => YScalar (bool_text b)
                                        | Some (VStr s) => YScalar s
                                        | Some (VConf (Some c')) => to_yaml c'
                                        | Some (VConf None) => YNull
                                        end)
                              end) es in
      if is_assoc k then YMap (fold_left (fun acc e => yaml_assign (fst e) (snd e) acc) ys [])
      else YSeq (map snd ys)
  end.
Definition yaml_write (c : option conf) : yaml := match c with Some c' => to_yaml c' | None => YNull end.
End YamlWrite.

(* ---- ini ---- *)
(* ini/private/ini_parser.h:20-26: std::map of std::multimap, and std::multimap *)
Record ini := Ini { sections : list (str * list (str * str)); globals : list (str * str) }.
(* std::multimap::emplace *)
Fixpoint mm_emplace (k v : str) (l : list (str * str)) : list (str * str) :=
  match l with
  | [] => [(k, v)]
  | (k', v') :: t => match scmp k k' with
                     | Lt => (k, v) :: l
                     | _ => (k', v') :: mm_emplace k v t
                     end
  end.
(* sections[name].emplace(k, v) *)
Fixpoint section_emplace (name k v : str) (l : list (str * list (str * str))) : list (str * list (str * str)) :=
  match l with
  | [] => [(name, [(k, v)])]
  | (n, s) :: t => match scmp name n with
                   | Lt => (name, [(k, v)]) :: l
                   | Eq => (n, mm_emplace k v s) :: t
                   | Gt => (n, s) :: section_emplace name k v t
                   end
  end.
(* ini_parser.cpp:16-30 on_value_parsed_; inih calls it with the section, the name
   and the value of every line name=value *)
Definition on_value_parsed (p : ini) (e : str * str * str) : ini :=
  let '(section, name, value) := e in
  match section with
  | [] => Ini (sections p) (mm_emplace name value (globals p))
  | _ => Ini (section_emplace section name value (sections p)) (globals p)
  end.
Definition ini_parse (lines : list (str * str * str)) : ini := fold_left on_value_parsed lines (Ini [] []).

Inductive ini_handle := Section_ (values : list (str * str)) | Value_ (s : str).
(* ini_section.cpp:21-29, ini_value.h:34-42 *)
Definition ini_get (h : ini_handle) : stored ini_handle :=
  match h with Section_ _ => SConf h | Value_ s => SStr s end.

(* std::multimap::find gives any of the entries with that key; pick says which *)
Section Ini.
Variable pick : str -> nat.
Fixpoint equal_count (k : str) (l : list (str * str)) : nat :=
  match l with
  | [] => 0
  | (k', _) :: t => if seqb k k' then S (equal_count k t) else 0
  end.
Fixpoint mm_find (k : str) (i : nat) (l : list (str * str)) : option (nat * str) :=
  match l with
  | [] => None
  | (k', _) :: t =>
      if seqb k k' then
        let j := Nat.modulo (pick k) (equal_count k l) in
        match nth_error l j with Some (_, v) => Some (i + j, v) | None => None end
      else mm_find k (S i) t
  end.
(* ini_config.cpp:19-116 for the document and for a section of it *)
Definition ini_backend (global : option (list (str * list (str * str)))) (values : list (str * str)) : backend ini_handle :=
  let secs := match global with Some s => s | None => [] end in
  {| b_size := length secs + length values;
     b_at := fun index =>
       if index <? length secs then option_map (fun e => (fst e, Section_ (snd e))) (nth_error secs index)
       else if index <? length secs + length values
            then option_map (fun e => (fst e, Value_ (snd e))) (nth_error values (index - length secs))
            else None;
     b_find := fun name =>
       match search (seqb name) 0 secs with
       | Found i s => Found i (Section_ s)
       | _ => match mm_find name 0 values with
              | Some (i, v) => Found (length secs + i) (Value_ v)
              | None => NotFound
              end
       end;
     b_keys := map fst secs ++ map fst values;
     b_assoc := true;
     b_multi := true;
     b_ordered := false |}.
Definition ini_document (p : ini) : backend ini_handle := ini_backend (Some (sections p)) (globals p).
Definition ini_section (values : list (str * str)) : backend ini_handle := ini_backend None values.
End Ini.
