(** Property C68: components followed by a dot and a modifier or multipath. *)
From Coq Require Import String List.
From Verif Require Import M_Base M_Util M_Value M_Path M_Get S_Json S_Str S_Get S_Path S_Query S_Mod S_ModText S_Multi S_Compose S_Eval S_Panic S_Then
  P_Wf P_Total P_Eval P_Then.
Import ListNotations.
Open Scope list_scope.

(** C68: behind [#] and a dot, a path that starts with a modifier or multipath is
    applied to every element of the array, and the texts found are put into an array. *)
Theorem C68_each : forall b after w1 w es w2, led b -> ws w1 -> ws w2 -> wf (CArr w es) ->
  (forall x, In x es -> exists v, get (render (i_val x)) b = Ok v /\ v_json v = after (i_val x)) ->
  exists v, get (w1 ++ render (CArr w es) ++ w2) (bs "#." ++ b) = Ok v /\ v_json v = listed (map after (map i_val es)).
Proof. intros b after w1 w es w2 Hb H1 _. exact (get_each b after w1 w es w2 Hb H1). Qed.
Print Assumptions C68_each.
(** Behind a query for all matches, to the elements that satisfy it. *)
Theorem C68_matches : forall q b holds after w1 w es w2, balanced q -> led b -> ws w1 -> ws w2 -> wf (CArr w es) ->
  (forall x, In x es -> q_holds (i_val x) q (holds (i_val x))) ->
  (forall x, In x es -> holds (i_val x) = true -> exists v, get (render (i_val x)) b = Ok v /\ v_json v = after (i_val x)) ->
  exists v, get (w1 ++ render (CArr w es) ++ w2) (qcomp q true ++ bs "." ++ b) = Ok v /\
    v_json v = listed (map after (filter holds (map i_val es))).
Proof. intros q b holds after w1 w es w2 Hq Hb H1 _. exact (get_matches q b holds after w1 w es w2 Hq Hb H1). Qed.
Print Assumptions C68_matches.
(** For any components: [result_then] says what is found. *)
Theorem C68_then : forall matches index holds after nothing ss b c w1 w2,
  meaning matches index holds ss -> steps_ok ss -> ss <> [] -> led b -> ws w1 -> ws w2 -> wf c ->
  (forall e, wf e -> part_of e c -> exists v, get (render e) b = Ok v /\ v_json v = after e) ->
  (exists v, get [] b = Ok v /\ v_json v = nothing) ->
  exists v, get (w1 ++ render c ++ w2) (dotted (map step_text ss) ++ bs "." ++ b) = Ok v /\
    v_json v = result_then matches index holds after nothing ss c.
Proof.
  intros matches index holds after nothing ss b c w1 w2 Hm Hok Hne Hb H1 _ Hc.
  exact (get_led matches index holds after nothing ss b c w1 w2 Hm Hok Hne Hb H1 Hc).
Qed.
Print Assumptions C68_then.
(** In the empty text. *)
Theorem C68_absent : forall nothing ss b, steps_ok ss -> ss <> [] -> led b ->
  (exists v, get [] b = Ok v /\ v_json v = nothing) ->
  exists v, get [] (dotted (map step_text ss) ++ bs "." ++ b) = Ok v /\ v_json v = nothing.
Proof. exact get_led_nowhere. Qed.
Print Assumptions C68_absent.
(** What the path behind the dot finds exists, except where it can panic (C08). *)
Theorem C68_after : forall b, ~ tilde_after_pretty b ->
  exists after nothing, (forall e, exists v, get (render e) b = Ok v /\ v_json v = after e) /\
    exists v, get [] b = Ok v /\ v_json v = nothing.
Proof.
  intros b Hb. exists (after0 b), (text_at b []). split; [intros e; exact (after0_ok b (render e) Hb) | exact (after0_ok b [] Hb)].
Qed.
Print Assumptions C68_after.

(** The cases.  The documents are
    [{"f":[{"n":1,"m":"a"},{"n":5,"m":"b"},7]}] and its array. *)
Definition mb (k : string) (v : cst) : memb cst := Memb [] (bs k) [] [] v [].
Definition it (v : cst) : item cst := Item [] v [].
Definition row (n : string) (m : string) : cst := CObj [] [mb "n" (CNum (bs n)); mb "m" (CStr (bs m))].
Definition rows : list (item cst) := [it (row "1" "a"); it (row "5" "b"); it (CNum (bs "7"))].
Definition tdoc : cst := CObj [] [mb "f" (CArr [] rows)].

Lemma tmulti_led : led (bs "{m,k:n}.@this").
Proof.
  exists (bs "{m,k:n}"), [bs "@this"]. split; [|split; [|reflexivity]].
  - apply (st_object (bs "m,k:n")). repeat (apply bal_char; [intros [H|[H|H]]; discriminate.. | discriminate | discriminate|]). constructor.
  - constructor; [|constructor]. right. apply (st_modifier (bs "this") None); [|exact I]. repeat constructor; discriminate.
Qed.

Example C68_each_case : exists v, get (render (CArr [] rows)) (bs "#.{m,k:n}.@this") = Ok v /\
  v_json v = bs "[{""m"":""a"",""k"":1},{""m"":""b"",""k"":5},{}]".
Proof.
  pose proof (C68_each (bs "{m,k:n}.@this") (after0 (bs "{m,k:n}.@this")) [] [] rows [] tmulti_led ltac:(constructor) ltac:(constructor)
    (wfb_wf (CArr [] rows) eq_refl)) as H. destruct H as (v & E & J).
  - intros x [<-|[<-|[<-|[]]]]; eexists; (split; vm_compute; reflexivity).
  - exists v. split; [rewrite <- E; f_equal; cbn [app]; rewrite app_nil_r; reflexivity|]. rewrite J. vm_compute. reflexivity.
Qed.
Example C68_matches_case : exists v, get (render (CArr [] rows)) (bs "#(n>1)#.{m,k:n}.@this") = Ok v /\ v_json v = bs "[{""m"":""b"",""k"":5}]".
Proof.
  pose proof (C68_matches (bs "n>1") (bs "{m,k:n}.@this") (holds0 (bs "n>1")) (after0 (bs "{m,k:n}.@this")) [] [] rows []) as H. destruct H as (v & E & J).
  - repeat (apply bal_char; [intros [H|[H|H]]; discriminate.. | discriminate | discriminate|]). constructor.
  - exact tmulti_led.
  - constructor.
  - constructor.
  - apply wfb_wf. reflexivity.
  - intros x [<-|[<-|[<-|[]]]]; eexists; (split; vm_compute; reflexivity).
  - intros x [<-|[<-|[<-|[]]]] _; eexists; (split; vm_compute; reflexivity).
  - exists v. split; [rewrite <- E; f_equal; cbn [app]; rewrite app_nil_r; reflexivity|]. rewrite J. vm_compute. reflexivity.
Qed.
(** [f.#.{m,k:n}.@this] in the object, and [x.#.{m,k:n}.@this], which leads nowhere. *)
Lemma th ss c r : forallb simple_step ss && apartb ss = true -> ss <> [] -> wfb c = true ->
  result_then match0 index0 holds0 (after0 (bs "{m,k:n}.@this")) (text_at (bs "{m,k:n}.@this") []) ss c = r ->
  exists v, get (render c) (dotted (map step_text ss) ++ bs "." ++ bs "{m,k:n}.@this") = Ok v /\ v_json v = r.
Proof.
  intros Hok Hne Hc <-. destruct (simple_steps ss Hok) as [Hs Hb].
  assert (Hcalm : calm (bs "{m,k:n}.@this")).
  { apply safe_calm, safe_no_escape. intros H. repeat (destruct H as [H|H]; [discriminate|]). destruct H. }
  pose proof (C68_then match0 index0 holds0 (after0 (bs "{m,k:n}.@this")) (text_at (bs "{m,k:n}.@this") []) ss (bs "{m,k:n}.@this") c [] []
    (meaning0 ss (proj1 Hs) (safe_calm _ (safe_no_escape _ Hb))) Hs Hne tmulti_led
    ltac:(constructor) ltac:(constructor) (wfb_wf c Hc) (fun e _ _ => after0_ok _ (render e) Hcalm) (after0_ok _ [] Hcalm)) as H.
  cbn [app] in H. rewrite app_nil_r in H. exact H.
Qed.
Example C68_then_case : exists v, get (render tdoc) (bs "f.#.{m,k:n}.@this") = Ok v /\
  v_json v = bs "[{""m"":""a"",""k"":1},{""m"":""b"",""k"":5},{}]".
Proof. exact (th [Name (bs "f"); Hash] tdoc _ eq_refl ltac:(discriminate) eq_refl eq_refl). Qed.
Example C68_then_case_nowhere : exists v, get (render tdoc) (bs "x.#.{m,k:n}.@this") = Ok v /\ v_json v = bs "{}".
Proof. exact (th [Name (bs "x"); Hash] tdoc _ eq_refl ltac:(discriminate) eq_refl eq_refl). Qed.
Example C68_absent_case : exists v, get [] (bs "f.#.{m,k:n}.@this") = Ok v /\ v_json v = bs "{}".
Proof.
  apply (C68_absent (bs "{}") [Name (bs "f"); Hash] (bs "{m,k:n}.@this")); [|discriminate | exact tmulti_led | eexists; split; vm_compute; reflexivity].
  exact (proj1 (simple_steps [Name (bs "f"); Hash] eq_refl)).
Qed.
