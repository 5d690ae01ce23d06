(** Property C82: blanks in front of a text, and JSON lines, whatever the text is. *)
From Coq Require Import String List NArith Lia.
From Verif Require Import M_Base M_Util M_Value M_Valid M_Get S_Json S_Same S_Lead P_Lead.
Import ListNotations.
Open Scope list_scope.

(** Blanks in front of any text, JSON or not, move what a path leads to by their number
    and change nothing else; [plain_path] says that the path does not begin with a
    modifier or a multipath. *)
Theorem C82_blanks : forall w s p, blanks w -> plain_path p -> moved (length w) (get (w ++ s) p) (get s p).
Proof. exact lead_get. Qed.
Print Assumptions C82_blanks.
Theorem C82_parse : forall w s, blanks w -> moved (length w) (parse (w ++ s)) (parse s).
Proof. exact lead_parse. Qed.
Print Assumptions C82_parse.
(** With modifiers and multipaths too the answers are the same, if the blanks are JSON
    whitespace or the text is not JSON anyway. *)
Theorem C82_any_path : forall w s p, blanks w -> ws w \/ valid s = Ok false -> same_outcome (get (w ++ s) p) (get s p).
Proof. exact lead_any. Qed.
Print Assumptions C82_any_path.
(** Otherwise [@valid] tells the two texts apart. *)
Theorem C82_excluded : exists w s p, blanks w /\ valid s = Ok true /\ ~ same_outcome (get (w ++ s) p) (get s p).
Proof.
  exists [0x01%N], (bs "[1]"), (bs "@valid"). split; [constructor; [lia | constructor]|]. split; [vm_compute; reflexivity|].
  intros H. assert (E1 : exists a, get ([0x01%N] ++ bs "[1]") (bs "@valid") = Ok a /\ v_json a = []) by (eexists; split; vm_compute; reflexivity).
  assert (E2 : exists b, get (bs "[1]") (bs "@valid") = Ok b /\ v_json b = bs "[1]") by (eexists; split; vm_compute; reflexivity).
  destruct E1 as (a & E1 & J1), E2 as (b & E2 & J2). rewrite E1, E2 in H. pose proof (sa_json _ _ H) as E. rewrite J1, J2 in E. discriminate.
Qed.
Print Assumptions C82_excluded.

(** Two dots: any text is searched as if an opening bracket stood in front of it, and
    values begin one byte earlier than they would then. *)
Theorem C82_lines : forall s p, array_path p -> moved 1 (get (bs "[" ++ s) p) (get s (bs ".." ++ p)).
Proof. exact lead_lines. Qed.
Print Assumptions C82_lines.

(** C25 for any text that begins with an object or an array, closed or not: looking up in
    the parsed value is looking up in the text. *)
Theorem C82_parse_get : forall w s p, blanks w -> begins_container s -> ws w \/ valid s = Ok false ->
  exists u, parse (w ++ s) = Ok u /\ same_outcome (v_get u p) (get (w ++ s) p).
Proof. exact lead_parse_get. Qed.
Print Assumptions C82_parse_get.

(** A text cut short, with a byte 1 in front; lines of which the second is not JSON. *)
Example C82_case : exists v v',
  blanks [0x01; 0x20]%N /\ plain_path (bs "a.#(b>1).c") /\
  get (bs "{""a"":[{b:7},{""b"":2,""c"":tru]") (bs "a.#(b>1).c") = Ok v /\ v_json v = bs "tru]" /\ v_index v = Some 23 /\
  get ([0x01; 0x20]%N ++ bs "{""a"":[{b:7},{""b"":2,""c"":tru]") (bs "a.#(b>1).c") = Ok v' /\ v_json v' = bs "tru]" /\ v_index v' = Some 25.
Proof.
  do 2 eexists. split; [repeat constructor; lia|]. split; [cbn; repeat split; discriminate|].
  repeat (split; [vm_compute; reflexivity|]). vm_compute; reflexivity.
Qed.
Example C82_lines_case : exists v v',
  array_path (bs "2.a") /\ get (bs "{""a"":1} -x {""a"":2,") (bs "..2.a") = Ok v /\ v_exists v = false /\
  get (bs "{""a"":1} -x {""a"":2}") (bs "..1") = Ok v' /\ v_json v' = bs "-" /\ v_index v' = Some 8.
Proof.
  do 2 eexists. split; [cbn; repeat split; try discriminate|]. repeat (split; [vm_compute; reflexivity|]). vm_compute; reflexivity.
Qed.
