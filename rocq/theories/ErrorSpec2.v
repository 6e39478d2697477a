(** What the data of the errors has to give for the strings that come with the library. *)
From Verif Require Import Base LexerModel TreeModel ValueModel FormatterModel FormatterSpec ProviderModel L10nData ErrorModel ErrorSpec.

(** ** The values for the placeholders *)
(** The data that an error brings itself: its own, and the message in it. *)
Inductive brings : error -> ldata -> Prop :=
| brings_own e : brings e (error_data e)
| brings_message e c i vs d : error_data e = LData c i (Some vs) -> mget (us "message") vs = Some (VData d) -> brings e d.
Definition data_identifier (d : ldata) : ustr := match d with LData _ i _ => i end.
Definition supplies (d : ldata) (ph : ustr) : Prop := exists c i vs v, d = LData c i (Some vs) /\ mget ph vs = Some v.
(** The data supplies the values for the placeholders of the string, and no other. *)
Definition matches_string (ic : icu) (d : ldata) (s : ustr) : Prop := forall ph, has_placeholder ic s ph <-> supplies d ph.
(** The strings whose placeholders are not those of the data: the first four in both languages, the last in Italian. *)
Definition unmatched (r : prow) : Prop :=
  In (pr_identifier r) [us "parameter_missing"; us "invalid_type"; us "invalid_keyword"; us "invalid_option"] \/
  (pr_identifier r = us "multi_number_sign" /\ pr_tag r = us "it").
