(** What YAML documents mean as JSON (the YAML 1.1 types null, bool, int and float). *)
From Verif Require Import Prelude Str Libc JsonModel JsonSpec YamlModel.
Set Implicit Arguments.

(** how a scalar was written *)
Inductive style := Plain | Quoted | Tagged (t : list byte).
(** nodes; a scalar has no NUL in it.  Keys are scalars. *)
Inductive node :=
| NScalar (s : style) (v : list byte)
| NSeq (l : list node)
| NMap (l : list (style * list byte * node)).

(** the events libyaml reports for a node: the flags are those of the untagged plain, the untagged quoted, and the tagged scalar *)
Definition scalar_event (s : style) (v : list byte) : event :=
  match s with
  | Plain => ScalarE None v true false
  | Quoted => ScalarE None v false true
  | Tagged t => ScalarE (Some t) v false false
  end.
Fixpoint events (n : node) : list event :=
  match n with
  | NScalar s v => [scalar_event s v]
  | NSeq l => SeqStart :: flat_map events l ++ [SeqEnd]
  | NMap l => MapStart :: flat_map (fun kn => match kn with (s, k, n) => scalar_event s k :: events n end) l ++ [MapEnd]
  end.
(** a stream of documents *)
Definition document (n : node) : list event := OtherE false :: events n ++ [OtherE false].
Definition stream (ds : list node) : list event := OtherE false :: flat_map document ds ++ [StreamEnd].

(** ** scalars *)
Definition null_words : list (list byte) := [[]; lit "~"; lit "NULL"; lit "Null"; lit "null"].
Definition true_words : list (list byte) := [lit "Y"; lit "y"; lit "YES"; lit "Yes"; lit "yes"; lit "TRUE"; lit "True"; lit "true"; lit "ON"; lit "On"; lit "on"].
Definition false_words : list (list byte) := [lit "N"; lit "n"; lit "NO"; lit "No"; lit "no"; lit "FALSE"; lit "False"; lit "false"; lit "OFF"; lit "Off"; lit "off"].
(** the types a scalar may have *)
Definition may_null (s : style) : Prop := s = Plain \/ s = Tagged (lit "tag:yaml.org,2002:null").
Definition may_bool (s : style) : Prop := s = Plain \/ s = Tagged (lit "tag:yaml.org,2002:bool").
Definition may_number (s : style) : Prop := s = Plain \/ s = Tagged (lit "tag:yaml.org,2002:int") \/ s = Tagged (lit "tag:yaml.org,2002:float").
(** a number in the syntax of JSON; [b]: with a fraction *)
Inductive scalar_value (s : style) (v : list byte) : json -> Prop :=
| sv_null : may_null s -> In v null_words -> scalar_value s v (JPrim PNull (lit "null"))
| sv_true : may_bool s -> In v true_words -> scalar_value s v (JPrim PBool (lit "true"))
| sv_false : may_bool s -> In v false_words -> scalar_value s v (JPrim PBool (lit "false"))
| sv_int : may_number s -> number false v -> scalar_value s v (JPrim PInt v)
| sv_real : may_number s -> number true v -> scalar_value s v (JPrim PReal v)
| sv_string : ~ (may_null s /\ In v null_words) -> ~ (may_bool s /\ (In v true_words \/ In v false_words)) ->
    ~ (may_number s /\ exists c, hd_error v = Some c /\ In c (lit "-0123456789")) -> scalar_value s v (JPrim PString v).

(** ** nodes: of members with the same key the last one counts *)
Definition has_key (k : list byte) (l : list (list byte * json)) : bool := existsb (fun kv => bytes_eqb k (fst kv)) l.
Fixpoint lasts (l : list (list byte * json)) : list (list byte * json) :=
  match l with [] => [] | (k, v) :: l => if has_key k l then lasts l else (k, v) :: lasts l end.
Inductive means : node -> json -> Prop :=
| m_scalar s v j : is_cstr v -> scalar_value s v j -> means (NScalar s v) j
| m_seq l js : Forall2 means l js -> means (NSeq l) (JArr js)
| m_map l kvs : Forall2 (fun kn kv => (is_cstr (snd (fst kn)) /\ fst kv = snd (fst kn)) /\ means (snd kn) (snd kv)) l kvs -> means (NMap l) (JObj (lasts kvs)).
