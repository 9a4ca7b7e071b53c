(** Model of the functions of libutils/set.c between sets of strings and JSON arrays, and of JsonPrimitiveToString of libutils/json.c. *)
From Verif Require Import Prelude Str Libc NumModel MapModel SetModel JsonModel.
Set Implicit Arguments.

Section SetJson.
  Variable shash : list byte -> N.
  (** what StringFromDouble(StringToDouble(text)) gives: the C library's %.2f of strtod, or a failing assert *)
  Variable real_text : list byte -> res (list byte).
  Notation sset := (set_t (list byte)).

  (** libutils/json.c:711-741 JsonPrimitiveToString; None is NULL *)
  Definition JsonPrimitiveToString (j : json) : res (option (list byte)) :=
    match j with
    | JPrim PBool v => Ok (Some (if JsonPrimitiveGetAsBool v then lit "true" else lit "false"))
    | JPrim PInt v => let* n := JsonPrimitiveGetAsInteger v in
                      let* m := StringFromLong n in
                      let* s := mstr m in Ok (Some s)
    | JPrim PReal v => let* s := real_text v in Ok (Some s)
    | JPrim PString v => Ok (Some v)
    | JPrim PNull _ => Ok None
    | _ => Ok None
    end.

  (** libutils/set.c:188-202 StringSetToJson *)
  Definition StringSetToJson (set : sset) : res json :=
    let* l := SetIterate set in
    Ok (JArr (fold_left (fun arr el => arr ++ [JsonStringCreate el]) l [])).

  (** the data of the walk: the set, or how the process ended *)
  Definition data := res sset.
  (** libutils/set.c:204-212 VisitJsonArrayFirst *)
  Definition VisitJsonArrayFirst (_ : json) (d : data) : data * bool :=
    match (let* set := d in SetSize set) with Ok n => (d, n =? 0) | UB => (UB, false) | Abort => (Abort, false) | Fuel => (Fuel, false) end.
  (** libutils/set.c:214-224 AddArrayItemToStringSet *)
  Definition AddArrayItemToStringSet (j : json) (d : data) : data * bool :=
    match (let* set := d in
           let* s := JsonPrimitiveToString j in
           match s with
           | Some t => let* ' (set, _) := SetAdd bytes_eqb shash set t in Ok (set, true)
           | None => Ok (set, false)
           end) with
    | Ok (set, go) => (Ok set, go) | UB => (UB, false) | Abort => (Abort, false) | Fuel => (Fuel, false)
    end.
  (** libutils/json.c:2845-2848 JsonErrorVisitor *)
  Definition JsonErrorVisitor (_ : json) (d : data) : data * bool := (d, false).
  (** libutils/set.c:226-247 JsonArrayToStringSet; None is NULL *)
  Definition JsonArrayToStringSet (array : json) : res (option sset) :=
    match array with
    | JArr _ =>
        let '(d, success) := JsonWalk (Some JsonErrorVisitor) (Some VisitJsonArrayFirst) (Some AddArrayItemToStringSet) array (Ok (SetNew (list byte))) in
        let* set := d in Ok (if success then Some set else None)
    | _ => Ok None
    end.
End SetJson.
