(** C85: what a path passes by has no influence. *)
From Coq Require Import String List NArith.
From Verif Require Import M_Base M_Value M_Get S_Json S_Path S_Get S_Follow S_Same S_Eval S_Frame P_Wf P_Eval P_Frame.
Import ListNotations.
Open Scope list_scope.

(** Two documents that are the same where the path goes give the same answers, whatever
    they have elsewhere and whatever follows them. *)
Theorem C85_passed : forall matches index holds ss c c' w r w' r',
  meaning matches index holds ss -> steps_ok ss -> ss <> [] -> ws w -> ws w' -> wf c -> wf c' ->
  passed matches index holds ss c c' ->
  exists v v', get (w ++ render c ++ r) (dotted (map step_text ss)) = Ok v /\
    get (w' ++ render c' ++ r') (dotted (map step_text ss)) = Ok v' /\
    v_exists v = v_exists v' /\ (v_exists v = true -> same_answers v v').
Proof. exact frame. Qed.
Print Assumptions C85_passed.

(** So does everything that follows behind a pipe, when the path in front of it finds
    something. *)
Theorem C85_pipe : forall matches index holds ss c c' w r w' r' rest,
  meaning matches index holds ss -> steps_ok ss -> ss <> [] -> ws w -> ws w' -> wf c -> wf c' ->
  passed matches index holds ss c c' -> result matches index holds ss c <> None ->
  same_outcome (get (w ++ render c ++ r) (dotted (map step_text ss) ++ 0x7C%N :: rest))
    (get (w' ++ render c' ++ r') (dotted (map step_text ss) ++ 0x7C%N :: rest)).
Proof. exact frame_pipe. Qed.
Print Assumptions C85_pipe.

Definition mb (k : string) (v : cst) : memb cst := Memb [] (bs k) [] [] v [].
Definition it (v : cst) : item cst := Item [] v [].
Definition nm (k : string) : step := Name (bs k).
Definition num (k : string) : cst := CNum (bs k).

(** In the member that the path enters, the rest of the path has to find something, or
    nothing may change.  Here the member [a] below [a] is not what [a.b] asks for, but it
    decides the answer. *)
Theorem C85_excluded : exists c c' v v', passed match0 index0 holds0 [nm "b"] c c' /\
  get (render (CObj [] [mb "a" c])) (bs "a.b") = Ok v /\ get (render (CObj [] [mb "a" c'])) (bs "a.b") = Ok v' /\
  v_exists v = false /\ v_exists v' = true.
Proof.
  exists (CObj [] [mb "a" (num "1")]), (CObj [] [mb "a" (CObj [] [mb "b" (num "2")])]). eexists. eexists.
  split; [|split; [vm_compute; reflexivity|split; [vm_compute; reflexivity|split; reflexivity]]].
  apply ps_object. apply mb_left; [vm_compute; reflexivity|]. apply mb_right; [vm_compute; reflexivity|]. apply mb_nil.
Qed.
Print Assumptions C85_excluded.

(** [b.2.y] and two documents with little else in common. *)
Definition f85_a : cst := CObj [] [mb "a" (num "1"); mb "b" (CArr [] [it CNull; it (num "2"); it (CObj [] [mb "x" CTrue; mb "y" (num "3")])]); mb "c" (num "4")].
Definition f85_b : cst := CObj [0x20%N] [mb "b" (CArr [] [it (CObj [] []); it (CStr (bs "z")); it (CObj [] [mb "y" (num "3"); mb "y" CNull]); it (num "9")]); mb "b" CNull].
Example C85_case : passed match0 index0 holds0 [nm "b"; nm "2"; nm "y"] f85_a f85_b /\ wf f85_a /\ wf f85_b /\
  steps_ok [nm "b"; nm "2"; nm "y"] /\ meaning match0 index0 holds0 [nm "b"; nm "2"; nm "y"] /\
  (exists v v', get (render f85_a) (bs "b.2.y") = Ok v /\ get (render f85_b) (bs "b.2.y") = Ok v' /\ v_json v = bs "3" /\ same_answers v v').
Proof.
  assert (P : passed match0 index0 holds0 [nm "b"; nm "2"; nm "y"] f85_a f85_b).
  { apply ps_object. apply mb_left; [vm_compute; reflexivity|]. apply mb_found; [vm_compute; reflexivity|vm_compute; reflexivity| |vm_compute; discriminate].
    cbn [m_val mb]. eapply ps_index; [vm_compute; reflexivity|reflexivity|reflexivity|]. cbn [i_val it].
    apply ps_object. apply mb_left; [vm_compute; reflexivity|]. apply mb_found; [vm_compute; reflexivity|vm_compute; reflexivity| |vm_compute; discriminate]. apply ps_same. }
  assert (Wa : wf f85_a) by (apply wfb_wf; vm_compute; reflexivity).
  assert (Wb : wf f85_b) by (apply wfb_wf; vm_compute; reflexivity).
  destruct (simple_steps [nm "b"; nm "2"; nm "y"] ltac:(vm_compute; reflexivity)) as [Ok _].
  assert (Mn : meaning match0 index0 holds0 [nm "b"; nm "2"; nm "y"]).
  { apply meaning0; [exact (proj1 Ok)|]. apply P_Total.safe_calm, P_Total.safe_no_escape. vm_compute. intuition discriminate. }
  split; [exact P|]. split; [exact Wa|]. split; [exact Wb|]. split; [exact Ok|]. split; [exact Mn|].
  destruct (C85_passed match0 index0 holds0 _ f85_a f85_b [] [] [] [] Mn Ok ltac:(discriminate) ltac:(constructor) ltac:(constructor) Wa Wb P) as (v & v' & E & E' & _ & S).
  cbn [app] in E, E'. rewrite !app_nil_r in E, E'. change (dotted (map step_text [nm "b"; nm "2"; nm "y"])) with (bs "b.2.y") in E, E'.
  exists v, v'. split; [exact E|]. split; [exact E'|]. vm_compute in E. injection E as <-. split; [reflexivity|]. apply S. reflexivity.
Qed.

(** A query passes by the elements that do not satisfy it, a hash by what the elements
    have elsewhere. *)
Example C85_case_query : exists v v',
  get (bs "[{""n"":1,""v"":""p""},{""n"":2,""v"":""q"",""w"":0}]") (bs "#(n=2)#.v") = Ok v /\
  get (bs "[{""n"":5},null,{""u"":[],""v"":""q"",""n"":2}]") (bs "#(n=2)#.v") = Ok v' /\ v_json v = bs "[""q""]" /\ v_json v' = bs "[""q""]".
Proof. eexists. eexists. split; [vm_compute; reflexivity|split; [vm_compute; reflexivity|split; reflexivity]]. Qed.
