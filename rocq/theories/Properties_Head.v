(** Property C67: how a modifier and its argument are read off a path.
    [head p name arg rest] (S_Head) says that the path [p] is the modifier [name] with the
    argument [arg] (empty if there is none), followed by the path [rest], if any. *)
From Coq Require Import String List.
From Verif Require Import M_Base S_Json S_Path S_Bad S_Taken S_PrettyArg S_Head M_Value M_Num M_Get M_Pretty P_Wf P_Head.
Import ListNotations.
Open Scope list_scope.

(** Every path that starts with an at-sign is read in exactly one way. *)
Theorem C67_total : forall t, exists name arg rest, head (bs "@" ++ t) name arg rest.
Proof. exact head_total. Qed.
Print Assumptions C67_total.
Theorem C67_unique : forall p name arg rest name' arg' rest',
  head p name arg rest -> head p name' arg' rest' -> name = name' /\ arg = arg' /\ rest = rest'.
Proof. exact head_unique. Qed.
Print Assumptions C67_unique.

(** The result depends on the name, the argument and the rest, and on nothing else. *)
Theorem C67_same : forall json p p' name arg rest,
  head p name arg rest -> head p' name arg rest -> get json p = get json p'.
Proof. exact head_same. Qed.
Print Assumptions C67_same.
(** The rest of the path is applied to the result of the modifier, after a dot as after
    a pipe. *)
Theorem C67_rest : forall json p name arg rest v, head p name arg (Some rest) ->
  get json (bs "@" ++ name ++ bs ":" ++ arg) = Ok v -> get json p = v_get v rest.
Proof. exact head_rest. Qed.
Print Assumptions C67_rest.

(** A name that is not one of the seven: nothing. *)
Theorem C67_unknown : forall json p name arg, head p name arg None ->
  ~ In name [bs "this"; bs "reverse"; bs "ugly"; bs "pretty"; bs "valid"; bs "flatten"; bs "join"] ->
  exists v, get json p = Ok v /\ absent v.
Proof. exact head_unknown. Qed.
Print Assumptions C67_unknown.
(** Four of them do not look at their argument. *)
Theorem C67_ignored : forall json p name arg, In name [bs "this"; bs "valid"; bs "reverse"; bs "ugly"] ->
  head p name arg None -> get json p = get json (bs "@" ++ name).
Proof. exact head_ignored. Qed.
Print Assumptions C67_ignored.
(** Two look at one field of it, as a boolean. *)
Theorem C67_flatten : forall json p arg dv b, head p (bs "flatten") arg None ->
  get arg (bs "deep") = Ok dv -> v_bool dv = Ok b ->
  get json p = get json (if b then bs "@flatten:{""deep"":true}" else bs "@flatten").
Proof. intros json p arg dv b H E B. rewrite (head_flatten json p arg dv b H E B). destruct b; reflexivity. Qed.
Print Assumptions C67_flatten.
Theorem C67_join : forall json p arg dv b, head p (bs "join") arg None ->
  get arg (bs "preserve") = Ok dv -> v_bool dv = Ok b ->
  get json p = get json (if b then bs "@join:{""preserve"":true}" else bs "@join").
Proof. intros json p arg dv b H E B. rewrite (head_join json p arg dv b H E B). destruct b; reflexivity. Qed.
Print Assumptions C67_join.
(** [@pretty] reads its options from the argument. *)
Theorem C67_pretty : forall json p arg o, head p (bs "pretty") arg None -> arg <> [] -> pretty_arg arg o ->
  exists out v x, pretty_options json o = Ok out /\ get json p = Ok v /\
    parse out = Ok x /\ v_json v = v_json x /\ v_kind v = v_kind x /\ v_str v = v_str x.
Proof. exact head_pretty. Qed.
Print Assumptions C67_pretty.

(** A group followed by something else than a separator takes the whole rest with it; a
    plain argument ends at the first dot or pipe; a backslash stays in the name. *)
Example C67_case_junk : head (bs "@flatten:{""deep"":true}x.0|1") (bs "flatten") (bs "{""deep"":true}x.0|1") None.
Proof.
  destruct (head_total (bs "flatten:{""deep"":true}x.0|1")) as (n & a & r & H).
  change (64%N :: bs "flatten:{""deep"":true}x.0|1") with (bs "@flatten:{""deep"":true}x.0|1") in H.
  pose proof (head_scanned _ _ _ _ H) as S. apply scanned_pnext in S as (comp & esc & pat & marg & extra & sep & E & Hc & Hr & _).
  vm_compute in E. injection E as <- <- <- <- <- <-. destruct Hc as [(_ & Hm & _)|(Hc & Hm)]; [discriminate|].
  destruct r as [u|]; [destruct Hr as [_ Hr]; discriminate|].
  assert (Hl : length n = length (bs "flatten")) by (injection Hm as Hm; rewrite <- Hm; reflexivity).
  injection Hc as Hc. change (bs "flatten" ++ 58%N :: bs "{""deep"":true}x.0|1" = n ++ 58%N :: a) in Hc.
  destruct (P_Utf8.app_inj_len _ _ _ _ (eq_sym Hl) Hc) as [<- Ha]. injection Ha as <-. exact H.
Qed.
Example C67_case_result : exists v, get (bs "[[1,[2]],3]") (bs "@flatten:{""deep"":true}x.0|1") = Ok v /\ v_json v = bs "[1,2,3]".
Proof. eexists. split; [vm_compute; reflexivity|]. vm_compute. reflexivity. Qed.
Example C67_case_plain : head (bs "@pretty:{}.a") (bs "pretty") (bs "{}") (Some (bs "a")) /\
  head (bs "@this:x y.a|b") (bs "this") (bs "x y") (Some (bs "a|b")) /\ head (bs "@th\is") (bs "th\is") [] None.
Proof.
  assert (W : forall n, forallb (fun c => negb ((c =? 46) || (c =? 124) || (c =? 58) || (c =? 92)))%N n = true -> mod_word n).
  { intros n Hn. apply name_word. apply P_ModDoc.plain_name, Hn. }
  split; [|split].
  - apply (hd_group_sep (bs "pretty") (bs "{}") 46%N (bs "a")); [apply W; reflexivity| |left; reflexivity].
    apply (mg_bracket 123%N [] 125%N); [left; reflexivity | constructor | right; right; reflexivity].
  - apply (hd_plain_sep (bs "this") (bs "x y") 46%N (bs "a|b")); [apply W; reflexivity| |left; reflexivity].
    split; [|cbv; intros [|[|]]; discriminate]. repeat constructor; cbv; intros [|]; discriminate.
  - apply hd_end. left. change (bs "th\is") with (bs "th" ++ 92%N :: 105%N :: bs "s").
    change (bs "th" ++ 92%N :: 105%N :: bs "s") with (116%N :: 104%N :: 92%N :: 105%N :: bs "s").
    do 2 (apply mw_char; [cbv; intros [|]; discriminate | discriminate | discriminate|]). apply mw_esc. apply W. reflexivity.
Qed.
