(** Model of libutils/json-yaml.c (with libyaml).

    libyaml is the list of the events it reports: after the last one, and after an error, it
    reports YAML_NO_EVENT for ever (the code ignores what yaml_parser_parse returns; the
    event is cleared first).  Elements are values (JsonModel.v); the code appends a new
    container first and fills it then, which gives the same value.  ProgrammingError is
    Abort.  What is logged is left out. *)
From Verif Require Import Prelude Str Libc JsonModel.
Set Implicit Arguments.

(** yaml_event_t; [value] is the memory of event.data.scalar.value up to its length, a NUL follows *)
Inductive event :=
| ScalarE (tag : option (list byte)) (value : list byte) (plain_implicit quoted_implicit : bool)
| SeqStart | SeqEnd | MapStart | MapEnd | StreamEnd | NoEvent
| OtherE (alias : bool).   (* stream start, document start and end; aliases *)

(** yaml.h YAML_NULL_TAG, YAML_BOOL_TAG, YAML_STR_TAG, YAML_INT_TAG, YAML_FLOAT_TAG, YAML_TIMESTAMP_TAG, YAML_DEFAULT_SCALAR_TAG *)
Definition yaml_tag (name : list byte) : list byte := lit "tag:yaml.org,2002:" ++ name.

(** libutils/json-yaml.c:49-135 JsonParseYamlScalarValue; strcmp sees [value] up to a NUL in it *)
Definition JsonParseYamlScalarValue (tag : option (list byte)) (value : list byte) (plain quoted : bool) : json :=
  let tag := match tag with Some t => t | None => yaml_tag (lit "str") end in
  let tag_is name := bytes_eqb tag (yaml_tag name) in
  let is s := bytes_eqb s (upto_nul value) in
  let one c := (length value =? 1)%nat && beq (nth 0 value NUL) c in
  let text := upto_nul value in
  let number :=
    if negb quoted && (plain || tag_is (lit "int") || tag_is (lit "float")) then
      match JsonParseAsNumber text with
      | POk j _ => Some j
      | PErr _ => None
      end
    else None in
  let rest := match number with Some j => j | None => JsonStringCreate text end in
  if (tag_is (lit "null") || plain) && (one "~"%char || (length value =? 0)%nat || is (lit "NULL") || is (lit "Null") || is (lit "null")) then JsonNullCreate
  else if negb quoted && (plain || tag_is (lit "bool")) then
    if one "Y"%char || one "y"%char || is (lit "YES") || is (lit "Yes") || is (lit "yes") || is (lit "TRUE") || is (lit "True") || is (lit "true") || is (lit "ON") || is (lit "On") || is (lit "on") then JsonBoolCreate true
    else if one "N"%char || one "n"%char || is (lit "NO") || is (lit "No") || is (lit "no") || is (lit "FALSE") || is (lit "False") || is (lit "false") || is (lit "OFF") || is (lit "Off") || is (lit "off") then JsonBoolCreate false
    else rest
  else if negb quoted && negb plain && tag_is (lit "bool") then
    JsonBoolCreate (negb ((length value =? 0)%nat || one "0"%char))
  else rest.

(** libutils/json-yaml.c:137-329 JsonParseYamlData: the element filled, and the events that are left.
    Each event takes one of [f]. *)
Fixpoint JsonParseYamlData (f : nat) (evs : list event) (element : json) (key : option (list byte)) : res (json * list event) :=
  match f with
  | O => Fuel
  | S f =>
      let container (start : json) (evs : list event) : res (json * list event) :=
        match element with
        | JObj kvs =>
            match key with
            | Some k =>
                let* ' (j, evs) := JsonParseYamlData f evs start None in
                JsonParseYamlData f evs (JObj (JsonObjectAppendElement kvs k j)) None
            | None => Abort
            end
        | JArr cs =>
            let* ' (j, evs) := JsonParseYamlData f evs start None in
            JsonParseYamlData f evs (JArr (JsonArrayAppendElement cs j)) None
        | JPrim _ _ => Abort
        end in
      match evs with
      | [] => Ok (element, [])
      | ScalarE tag value plain quoted :: evs =>
          match element with
          | JObj kvs =>
              match key with
              | None => JsonParseYamlData f evs element (Some (upto_nul value))
              | Some k => JsonParseYamlData f evs (JObj (JsonObjectAppendElement kvs k (JsonParseYamlScalarValue tag value plain quoted))) None
              end
          | JArr cs => JsonParseYamlData f evs (JArr (JsonArrayAppendElement cs (JsonParseYamlScalarValue tag value plain quoted))) None
          | JPrim _ _ => Abort
          end
      | SeqStart :: evs => container (JArr []) evs
      | MapStart :: evs => container (JObj []) evs
      | SeqEnd :: evs => match element with JArr _ => Ok (element, evs) | _ => Abort end
      | MapEnd :: evs => match element with JObj _ => Ok (element, evs) | _ => Abort end
      | StreamEnd :: evs => Ok (element, evs)
      | NoEvent :: evs => Ok (element, evs)
      | OtherE _ :: evs => JsonParseYamlData f evs element key
      end
  end.

(** libutils/json-yaml.c:331-356 JsonParseYamlString, after yaml_parser_initialize; the result is JSON_PARSE_OK whenever it returns.
    JsonAt of an empty holder fails an assert. *)
Definition JsonParseYamlString (fmt4 : list byte -> list byte) (evs : list event) : res json :=
  let* ' (holder, _) := JsonParseYamlData (S (length evs)) evs (JArr []) None in
  match holder with
  | JArr (j :: _) => JsonCopy fmt4 j
  | _ => Abort
  end.
