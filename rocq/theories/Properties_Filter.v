(** Property C79: laws of queries. *)
From Coq Require Import String List NArith.
From Verif Require Import M_Base M_Util M_Value M_Valid M_Get S_Json S_Get S_Path S_Str S_Query S_Api S_Panic S_Taken S_Same S_Float S_Truth S_Filter
  M_Num P_Total P_FloatText P_Filter Properties_Query Properties_Truth.
Import ListNotations.
Open Scope list_scope.
Open Scope nat_scope.

(** C79: in an array taken from a valid document, by any lookup.  [qcomp q false] is the
    text #(q) and [qcomp q true] is #(q)#; [tilde_after_pretty] is what can panic (C08).
    The first match is the first of all matches. *)
Theorem C79_first : forall s u q, valid s = Ok true -> taken s u -> v_kind u = KArray ->
  balanced q -> ~ tilde_after_pretty (qcomp q false) ->
  same_find (v_get u (qcomp q false)) (v_get u (qcomp q true ++ bs "|0")).
Proof. exact law_first_of. Qed.
Print Assumptions C79_first.
(** All matches are exactly the elements that match alone, in order. *)
Theorem C79_all : forall s u q l, valid s = Ok true -> taken s u -> v_kind u = KArray -> v_array u = Ok l ->
  balanced q -> ~ tilde_after_pretty (qcomp q false) ->
  exists v m sel, v_get u (qcomp q true) = Ok v /\ v_array v = Ok m /\
    (forall x, In x l -> picks q (v_json x) (sel (v_json x))) /\ map v_json m = filter sel (map v_json l).
Proof. exact law_all. Qed.
Print Assumptions C79_all.
(** Filtering twice is filtering once, and two filters can change places. *)
Theorem C79_twice : forall s u q, valid s = Ok true -> taken s u -> v_kind u = KArray ->
  balanced q -> ~ tilde_after_pretty (qcomp q false) ->
  same_find (v_get u (qcomp q true ++ bs "|" ++ qcomp q true)) (v_get u (qcomp q true)).
Proof. exact law_twice. Qed.
Print Assumptions C79_twice.
Theorem C79_order : forall s u q q', valid s = Ok true -> taken s u -> v_kind u = KArray -> balanced q -> balanced q' ->
  ~ tilde_after_pretty (qcomp q false) -> ~ tilde_after_pretty (qcomp q' false) ->
  same_find (v_get u (qcomp q true ++ bs "|" ++ qcomp q' true)) (v_get u (qcomp q' true ++ bs "|" ++ qcomp q true)).
Proof. exact law_order. Qed.
Print Assumptions C79_order.
(** A path behind #(q)# is looked up in each match. *)
Theorem C79_each : forall s u q ks, valid s = Ok true -> taken s u -> v_kind u = KArray ->
  balanced q -> ~ tilde_after_pretty (qcomp q false) -> Forall any_comp ks -> ks <> [] -> ~ tilde_after_pretty (dotted ks) ->
  same_find (v_get u (qcomp q true ++ bs "." ++ dotted ks)) (v_get u (qcomp q true ++ bs "|#." ++ dotted ks)).
Proof. exact law_each. Qed.
Print Assumptions C79_each.
(** Behind #(q) the dot is the pipe: for every text, valid or not, that does not begin
    like an object, and with any path behind. *)
Theorem C79_dot : forall w t q p, blank w -> (0x20 < hd 0 t)%N -> hd 0%N t <> 0x7B%N -> balanced q ->
  get (w ++ t) (qcomp q false ++ bs "." ++ p) = get (w ++ t) (qcomp q false ++ bs "|" ++ p).
Proof. exact law_dot. Qed.
Print Assumptions C79_dot.

(** = and !=, < and >=, > and <=, % and !% are opposites, where the values can be
    compared: exactly one of the two queries holds.  ([opposite] lists the conditions: = and
    != for strings, numbers and booleans and for any value when the right-hand side has a
    tilde; the order for strings, and for numbers unless one is NaN; patterns for
    strings.) *)
Theorem C79_opposite : forall c x q q' o o' r r1, wf c -> asks c x q o r -> asks c x q' o' r ->
  trimmed r -> balanced r -> hd 0%N r <> 0x3D%N -> rhs_reads r r1 ->
  (exists a, v_bool x = Ok a) -> (exists s, v_str x = Ok s) -> opposite x r1 o o' ->
  exists t, q_holds c q t /\ q_holds c q' (negb t).
Proof. exact opposite_query. Qed.
Print Assumptions C79_opposite.
(** <= is < or =, and >= is > or =, and never both. *)
Theorem C79_or_equal : forall c x q1 q2 q3 o o' r r1, wf c -> (o, o') = (QLe, QLt) \/ (o, o') = (QGe, QGt) ->
  asks c x q1 o r -> asks c x q2 o' r -> asks c x q3 QEq r ->
  trimmed r -> balanced r -> hd 0%N r <> 0x3D%N -> rhs_reads r r1 ->
  (exists a, v_bool x = Ok a) -> (exists s, v_str x = Ok s) -> orderable x r1 ->
  exists t u, q_holds c q2 t /\ q_holds c q3 u /\ q_holds c q1 (t || u) /\ t && u = false.
Proof. exact or_equal. Qed.
Print Assumptions C79_or_equal.
(** Other values satisfy neither. *)
Theorem C79_neither : forall c x q o r r1, wf c -> asks c x q o r ->
  trimmed r -> balanced r -> hd 0%N r <> 0x3D%N -> rhs_reads r r1 ->
  (exists a, v_bool x = Ok a) -> (exists s, v_str x = Ok s) -> ~ comparable x -> ~ tilde r1 -> q_holds c q false.
Proof. exact incomparable. Qed.
Print Assumptions C79_neither.
(** Two queries of which exactly one holds for each element divide the array. *)
Theorem C79_divide : forall s u q q' l, valid s = Ok true -> taken s u -> v_kind u = KArray -> v_array u = Ok l ->
  balanced q -> balanced q' -> ~ tilde_after_pretty (qcomp q false) -> ~ tilde_after_pretty (qcomp q' false) ->
  (forall x, In x l -> exists t, picks q (v_json x) t /\ picks q' (v_json x) (negb t)) ->
  exists v v' m m' sel, v_get u (qcomp q true) = Ok v /\ v_array v = Ok m /\ v_get u (qcomp q' true) = Ok v' /\ v_array v' = Ok m' /\
    map v_json m = filter sel (map v_json l) /\ map v_json m' = filter (fun t => negb (sel t)) (map v_json l) /\ length m + length m' = length l.
Proof. exact law_divide. Qed.
Print Assumptions C79_divide.
(** Not so for booleans, whose <= and >= do not look at the right-hand side. *)
Theorem C79_excluded : exists v w, get (bs "[true,false]") (bs "#(<false)#") = Ok v /\ get (bs "[true,false]") (bs "#(>=false)#") = Ok w /\
  v_json v = bs "[]" /\ v_json w = bs "[true]".
Proof.
  do 2 eexists. split; [vm_compute; reflexivity|]. split; [vm_compute; reflexivity|]. split; vm_compute; reflexivity.
Qed.
Print Assumptions C79_excluded.

(** An array inside a document, three queries on it. *)
Definition fdoc : list N := bs "{""f"": [ {""a"":5,""b"":""x""}, {""a"": 7,""b"":""yx""} ,{""b"":null}]}".
Example C79_case : valid fdoc = Ok true /\ (exists u, get fdoc (bs "f") = Ok u /\ taken fdoc u /\ v_kind u = KArray) /\
  balanced (bs "a>=6") /\ ~ tilde_after_pretty (qcomp (bs "a>=6") false) /\
  qcomp (bs "a>=6") true = bs "#(a>=6)#" /\
  (exists v, get fdoc (bs "f|#(a>=6)") = Ok v /\ v_json v = bs "{""a"": 7,""b"":""yx""}") /\
  (exists v, get fdoc (bs "f|#(a>=6)#") = Ok v /\ v_json v = bs "[{""a"": 7,""b"":""yx""}]") /\
  (exists v, get fdoc (bs "f|#(a<6)#") = Ok v /\ v_json v = bs "[{""a"":5,""b"":""x""}]") /\
  (exists v, get fdoc (bs "f|#(b!%""y*"")#.a") = Ok v /\ v_json v = bs "[5]").
Proof.
  split; [vm_compute; reflexivity|]. split; [|split; [apply plain_balanced; reflexivity|split; [apply calm_plain; reflexivity|split; [reflexivity|]]]].
  - assert (T1 : exists v, get fdoc (bs "f") = Ok v) by (eexists; vm_compute; reflexivity). destruct T1 as (v & E). exists v. split; [exact E|].
    split; [eapply tk_get; [|exact E] | vm_compute in E; injection E as <-; reflexivity].
    unfold tame. repeat split; intros (a & b & H); destruct a as [|? [|? ?]]; discriminate H.
  - repeat split; eexists; (split; vm_compute; reflexivity).
Qed.
(** The hypotheses of C79_opposite, for the string s and the number n. *)
Example C79_opposite_case : exists x y,
  asks qobj x (bs " n<abc") QLt (bs "abc") /\ asks qobj x (bs " n>=abc") QGe (bs "abc") /\ orderable x (bs "abc") /\
  opposite x (bs "abc") QLt QGe /\ asks qobj y (bs " n=2") QEq (bs "2") /\ asks qobj y (bs " n!=2") QNe (bs "2") /\ opposite y (bs "2") QEq QNe /\
  q_holds qobj (bs " n<abc") true /\ q_holds qobj (bs " n>=abc") false /\ q_holds qobj (bs " n=2") false /\ q_holds qobj (bs " n!=2") true.
Proof.
  assert (R : forall s y, fval (raw_to_f64 s) = Some y -> f64_reads s (Some y)).
  { intros s y H. destruct (reads_total s) as (o & Ho). pose proof Ho as Ho'. apply reads_raw in Ho' as [_ E]. rewrite H in E. subst o. exact Ho. }
  do 2 eexists. split; [asks_key (bs "n")|]. split; [asks_key (bs "n")|].
  match goal with |- orderable ?x ?r /\ _ => assert (O : orderable x r) end.
  { split; [vm_compute; reflexivity|]. split; [discriminate|]. right. split; [vm_compute; reflexivity|].
    do 2 eexists. split; apply R; vm_compute; reflexivity. }
  split; [exact O|]. split; [apply op_lt, O|]. split; [asks_key (bs "n")|]. split; [asks_key (bs "n")|].
  split; [apply op_eq; [left; reflexivity | left; split; [vm_compute; reflexivity | right; left; vm_compute; reflexivity]]|].
  split; [holds_by|]. split; [holds_by|]. split; holds_by.
Qed.
