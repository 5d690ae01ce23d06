(** What a path passes by. *)
From Coq Require Import List NArith Lia Bool.
From Verif Require Import M_Base M_Value M_Get S_Json S_Path S_Get S_Follow S_Same S_Mod S_Api S_Eval S_Compose S_Frame P_Path P_Pipe P_Eval P_Laws P_Agree P_Reach.
Import ListNotations. Open Scope list_scope.

Scheme passed_m := Minimality for passed Sort Prop
with each_m := Minimality for each Sort Prop
with picked_m := Minimality for picked Sort Prop
with members_m := Minimality for members Sort Prop.
Combined Scheme passed_all from passed_m, each_m, picked_m, members_m.

Section Frame.
Context (mt : text -> text -> bool) (ix : text -> option nat) (hd : text -> cst -> bool).
Notation ev := (eval mt ix hd).
Notation passed := (passed mt ix hd).
Notation each := (each mt ix hd).
Notation picked := (picked mt ix hd).
Notation members := (members mt ix hd).

Fixpoint run (s : step) (ss : list step) (ms : list (memb cst)) : ending (option cst) :=
  match ms with
  | [] => Stop
  | m :: t =>
      if hits mt s (name_of m) then
        match ss with
        | [] => Found (Some (m_val m))
        | _ => match m_val m with
               | CArr _ _ | CObj _ _ =>
                   match ev ss (m_val m) with
                   | Some r => Found r
                   | None => match scan (hits mt s) false (ev ss) (m_val m) with Go => run s ss t | e => e end
                   end
               | _ => Found None
               end
        end
      else run s ss t
  end.
Lemma run_eq s ss w ms : scan (hits mt s) (match ss with [] => true | _ => false end) (ev ss) (CObj w ms) = run s ss ms.
Proof.
  unfold scan. cbn [scan_with]. induction ms as [|[w1 k w2 w3 v w4] t IH]; [reflexivity|]. cbn [run m_val].
  destruct (hits mt s _); [|exact IH]. destruct ss as [|s1 ss]; [reflexivity|]. destruct v; try reflexivity; rewrite IH; reflexivity.
Qed.
Definition pick (q : text) (ss : list step) (es : list (item cst)) : option (option cst) :=
  match find (hd q) (map i_val es) with Some e => Some (flat (ev ss e)) | None => None end.
Definition picks (q : text) (ss : list step) (es : list (item cst)) : list cst :=
  collect (fun e => flat (ev ss e)) (filter (hd q) (map i_val es)).

Lemma leaf_cases (A : Type) c (x y : A) : leaf c -> match c with CArr _ _ | CObj _ _ => x | _ => y end = y.
Proof. destruct c; cbn; [..|intros []|intros []]; reflexivity. Qed.

Lemma passed_shape ss c d : passed ss c d -> c = d \/ (match c with CArr _ _ | CObj _ _ => true | _ => false end = true /\ match d with CArr _ _ | CObj _ _ => true | _ => false end = true).
Proof. intros H. destruct H; auto. Qed.

Lemma frame_all :
  (forall ss c d, passed ss c d -> ev ss c = ev ss d) /\
  (forall ss es es', each ss es es' -> length es = length es' /\ collect (fun e => flat (ev ss e)) (map i_val es) = collect (fun e => flat (ev ss e)) (map i_val es')) /\
  (forall q al ss es es', picked q al ss es es' -> if al : bool then picks q ss es = picks q ss es' else pick q ss es = pick q ss es') /\
  (forall s ss ms ms', members s ss ms ms' -> run s ss ms = run s ss ms').
Proof.
  apply passed_all.
  - reflexivity.
  - intros k n ss w w' es es' e e' Hi He He' _ IH. cbn [eval]. rewrite Hi, He, He', IH. reflexivity.
  - intros k n ss w w' es es' Hi He He'. cbn [eval]. rewrite Hi. apply nth_error_None in He. apply nth_error_None in He'. rewrite He, He'. reflexivity.
  - intros k ss w w' es es' Hi. cbn [eval]. rewrite Hi. reflexivity.
  - intros w w' es es' Hl. cbn [eval]. rewrite Hl. reflexivity.
  - intros ss w w' es es' Hn _ [Hl He]. cbn [eval]. destruct ss; [congruence|]. rewrite He. reflexivity.
  - intros q ss w w' es es' _ IH. cbn [eval]. unfold picks in IH. rewrite IH. reflexivity.
  - intros q ss w w' es es' _ IH. exact IH.
  - intros s ss w w' ms ms' _ IH. cbn [eval]. rewrite !run_eq, IH. reflexivity.
  - split; reflexivity.
  - intros ss e e' es es' _ IH _ [Hl He]. split; [cbn [length]; congruence|]. unfold collect in *. cbn [map flat_map]. rewrite IH, He. reflexivity.
  - intros q [] ss; reflexivity.
  - intros q al ss e es es' He _ IH. destruct al; unfold picks, pick in *; cbn [map filter find]; rewrite He; exact IH.
  - intros q al ss e es es' He _ IH. destruct al; unfold picks, pick in *; cbn [map filter find]; rewrite He; exact IH.
  - intros q ss e e' es es' He He' _ IH _ IH2. unfold picks, collect in *. cbn [map filter]. rewrite He, He'. cbn [flat_map]. rewrite IH, IH2. reflexivity.
  - intros q ss e e' es es' He He' _ IH. unfold pick. cbn [map find]. rewrite He, He', IH. reflexivity.
  - reflexivity.
  - intros s ss m ms ms' Hm _ IH. cbn [run]. rewrite Hm. exact IH.
  - intros s ss m ms ms' Hm _ IH. cbn [run]. rewrite Hm. exact IH.
  - intros s ss m m' ms ms' Hn Hv _ IH. cbn [run]. rewrite Hn, Hv, IH. reflexivity.
  - intros s ss m m' ms ms' Hm Hm' Hp IH Hf. cbn [run]. rewrite Hm, Hm'.
    destruct ss as [|s1 ss]; [inversion Hp; subst; congruence|]. rewrite IH in Hf |- *.
    destruct (passed_shape _ _ _ Hp) as [E|[Ec Ed]].
    + rewrite E. destruct (ev (s1 :: ss) (m_val m')) as [r|]; [|congruence]. destruct (m_val m'); reflexivity.
    + destruct (ev (s1 :: ss) (m_val m')) as [r|]; [|congruence]. destruct (m_val m); try discriminate Ec; destruct (m_val m'); try discriminate Ed; reflexivity.
  - intros s ss m m' ms ms' Hm Hm' Hs Hl Hl'. cbn [run]. rewrite Hm, Hm'. destruct ss as [|s1 ss]; [congruence|].
    rewrite !leaf_cases by auto. reflexivity.
Qed.
End Frame.

Lemma frame mt ix hd ss c c' w1 w2 w1' w2' : meaning mt ix hd ss -> steps_ok ss -> ss <> [] -> ws w1 -> ws w1' -> wf c -> wf c' -> passed mt ix hd ss c c' ->
  exists v v', get (w1 ++ render c ++ w2) (dotted (map step_text ss)) = Ok v /\ get (w1' ++ render c' ++ w2') (dotted (map step_text ss)) = Ok v' /\
    v_exists v = v_exists v' /\ (v_exists v = true -> same_answers v v').
Proof.
  intros Hm Hok Hn Hw Hw' Hc Hc' Hp. pose proof (get_result mt ix hd ss c w1 w2 Hm Hok Hn Hw Hc) as A.
  pose proof (get_result mt ix hd ss c' w1' w2' Hm Hok Hn Hw' Hc') as B. unfold result in A, B.
  rewrite (proj1 (frame_all mt ix hd) ss c c' Hp) in A. destruct (flat (eval mt ix hd ss c')) as [d|]; cbn [answers] in A, B.
  - destruct A as (v & E & S), B as (v' & E' & S'). exists v, v'. split; [exact E|]. split; [exact E'|].
    assert (X : same_answers v v') by (eapply shows_same; [eapply ret_get, E|eapply ret_get, E'|exact S|exact S']).
    split; [apply (sa_exists _ _ X)|intros _; exact X].
  - destruct A as (v & E & S), B as (v' & E' & S'). exists v, v'. split; [exact E|]. split; [exact E'|]. split; congruence.
Qed.

Lemma frame_pipe mt ix hd ss c c' w1 w2 w1' w2' B : meaning mt ix hd ss -> steps_ok ss -> ss <> [] -> ws w1 -> ws w1' -> wf c -> wf c' -> passed mt ix hd ss c c' ->
  result mt ix hd ss c <> None ->
  same_outcome (get (w1 ++ render c ++ w2) (dotted (map step_text ss) ++ 124%N :: B)) (get (w1' ++ render c' ++ w2') (dotted (map step_text ss) ++ 124%N :: B)).
Proof.
  intros Hm Hok Hn Hw Hw' Hc Hc' Hp Hr.
  destruct (frame mt ix hd ss c c' w1 w2 w1' w2' Hm Hok Hn Hw Hw' Hc Hc' Hp) as (v & v' & E & E' & _ & S).
  assert (X : v_exists v = true).
  { pose proof (get_result mt ix hd ss c w1 w2 Hm Hok Hn Hw Hc) as A. destruct (result mt ix hd ss c) as [d|]; [|congruence].
    destruct A as (x & Ex & Sx). rewrite E in Ex. injection Ex as <-. exact (sh_exists _ _ Sx). }
  assert (Ht : map step_text ss <> []) by (destruct ss; [congruence|discriminate]).
  assert (Ha : Forall any_comp (map step_text ss)).
  { apply Forall_map. destruct Hok as [Hs _]. revert Hs. apply Forall_impl. exact step_any. }
  rewrite !get_pipe by auto. rewrite E, E'. cbn [bind]. apply same_vget; [eapply ret_get, E|eapply ret_get, E'|apply sa_json, S, X].
Qed.
