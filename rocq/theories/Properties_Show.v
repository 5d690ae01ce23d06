(** C86: what is printed. *)
From Coq Require Import String List NArith.
From Verif Require Import M_Base M_Value M_Get M_Show S_Json S_Path S_Get S_Follow S_Decode S_Eval S_Show P_Wf P_Eval P_Decode P_Show.
Import ListNotations.
Open Scope list_scope.

(** Every piece of a document has one text that is printed for it. *)
Theorem C86_one : forall c, exists t, printed c t /\ forall t', printed c t' -> t' = t.
Proof. intros c. destruct (printed_total c) as (t & H). exists t. split; [exact H|]. intros t' H'. exact (printed_once c t' t H' H). Qed.
Print Assumptions C86_one.

(** Printing the value found prints that text. *)
Theorem C86_found : forall matches index holds ss c w r d t,
  meaning matches index holds ss -> steps_ok ss -> ss <> [] -> ws w -> wf c ->
  result matches index holds ss c = Some d -> printed d t ->
  exists v, get_bytes (w ++ render c ++ r) (dotted (map step_text ss)) = Ok v /\ v_display v = Ok t.
Proof. exact print_one. Qed.
Print Assumptions C86_found.

(** The loops of the README over an array print one line for each element, in order. *)
Theorem C86_array : forall matches index holds ss c w r w' es ts,
  meaning matches index holds ss -> steps_ok ss -> ss <> [] -> ws w -> wf c ->
  result matches index holds ss c = Some (CArr w' es) -> Forall2 printed (map i_val es) ts ->
  exists v, get_bytes (w ++ render c ++ r) (dotted (map step_text ss)) = Ok v /\
    println_array v = Ok (lines ts) /\ println_each v = Ok (lines ts).
Proof. exact print_found. Qed.
Print Assumptions C86_array.

(** Over an object: one line for each member, in order. *)
Theorem C86_object : forall matches index holds ss c w r w' ms ts,
  meaning matches index holds ss -> steps_ok ss -> ss <> [] -> ws w -> wf c ->
  result matches index holds ss c = Some (CObj w' ms) -> Forall2 printed_member ms ts ->
  exists v, get_bytes (w ++ render c ++ r) (dotted (map step_text ss)) = Ok v /\ println_members v = Ok (lines ts).
Proof. exact print_member_lines. Qed.
Print Assumptions C86_object.

(** [programmers.#.lastName]: one line for each element of the array under the first
    member of that name in which the rest of the path finds something. *)
Theorem C86_collected : forall matches index holds k rest c w a m b w' es w1 r ts,
  meaning matches index holds (Name k :: Hash :: rest) -> steps_ok (Name k :: Hash :: rest) -> ws w1 ->
  c = CObj w (a ++ m :: b) -> wf c -> rest <> [] ->
  Forall (fun x => matches k (name_of x) = false) a -> matches k (name_of m) = true -> m_val m = CArr w' es ->
  Forall2 printed (collect (result matches index holds rest) (map i_val es)) ts ->
  exists v, get_bytes (w1 ++ render c ++ r) (dotted (map step_text (Name k :: Hash :: rest))) = Ok v /\
    println_array v = Ok (lines ts) /\ println_each v = Ok (lines ts).
Proof. exact print_collected. Qed.
Print Assumptions C86_collected.

Definition mb (k : string) (v : cst) : memb cst := Memb [] (bs k) [] [] v [].
Definition it (v : cst) : item cst := Item [] v [].
Definition nm (k : string) : step := Name (bs k).
Definition str (k : string) : cst := CStr (bs k).
(** Three programmers, one without a last name, one with an escaped character. *)
Definition p86 : cst := CObj [] [mb "n" CNull; mb "p" (CArr [] [it (CObj [] [mb "f" (str "Janet"); mb "l" (str "Mc\/Laughlin")]);
  it (CObj [] [mb "f" CNull]); it (CObj [] [mb "l" (str "Harold"); mb "f" (str "Jason")])])].
Definition ss86 : list step := [nm "p"; Hash; nm "l"].
Example C86_case : exists v, get_bytes (render p86) (bs "p.#.l") = Ok v /\ v_json v = bs "[""Mc\/Laughlin"",""Harold""]" /\
  println_array v = Ok (bs "Mc/Laughlin" ++ [10%N] ++ bs "Harold" ++ [10%N]).
Proof.
  destruct (simple_steps ss86 ltac:(vm_compute; reflexivity)) as [Ho _].
  assert (Mn : meaning match0 index0 holds0 ss86).
  { apply meaning0; [exact (proj1 Ho)|]. apply P_Total.safe_calm, P_Total.safe_no_escape. vm_compute. intuition discriminate. }
  assert (D : forall b, ~ In 92%N b -> Forall (fun c => (32 <= c)%N) b -> decodes b b).
  { induction b as [|c b IH]; intros H F; [constructor|]. inversion F; subst. constructor; [assumption| |apply IH; [|assumption]]; intros X; apply H; [left; congruence|right; exact X]. }
  destruct (C86_collected match0 index0 holds0 (bs "p") [nm "l"] p86 [] [mb "n" CNull] (mb "p" (CArr [] [it (CObj [] [mb "f" (str "Janet"); mb "l" (str "Mc\/Laughlin")]);
    it (CObj [] [mb "f" CNull]); it (CObj [] [mb "l" (str "Harold"); mb "f" (str "Jason")])])) [] []
    [it (CObj [] [mb "f" (str "Janet"); mb "l" (str "Mc\/Laughlin")]); it (CObj [] [mb "f" CNull]); it (CObj [] [mb "l" (str "Harold"); mb "f" (str "Jason")])]
    [] [] [bs "Mc/Laughlin"; bs "Harold"] Mn Ho) as (v & E & P & _).
  - constructor.
  - reflexivity.
  - apply wfb_wf. vm_compute. reflexivity.
  - discriminate.
  - constructor; [vm_compute; reflexivity|constructor].
  - vm_compute. reflexivity.
  - reflexivity.
  - assert (C : collect (result match0 index0 holds0 [nm "l"]) (map i_val [it (CObj [] [mb "f" (str "Janet"); mb "l" (str "Mc\/Laughlin")]); it (CObj [] [mb "f" CNull]); it (CObj [] [mb "l" (str "Harold"); mb "f" (str "Jason")])]) = [str "Mc\/Laughlin"; str "Harold"]) by (vm_compute; reflexivity).
    rewrite C. constructor; [|constructor; [|constructor]]; apply pr_string.
    + apply (dc_plain 77%N); [discriminate|discriminate|]. apply (dc_plain 99%N); [discriminate|discriminate|]. apply (dc_short 47%N); [vm_compute; tauto|].
      apply D; [vm_compute; intuition discriminate|vm_compute; repeat (constructor; [discriminate|]); constructor].
    + apply D; [vm_compute; intuition discriminate|vm_compute; repeat (constructor; [discriminate|]); constructor].
  - cbn [app] in E. rewrite app_nil_r in E. change (dotted (map step_text (Name (bs "p") :: Hash :: [nm "l"]))) with (bs "p.#.l") in E. exists v. split; [exact E|]. split; [|exact P].
    vm_compute in E. injection E as <-. reflexivity.
Qed.
(** An object with an escaped name, read from the text. *)
Example C86_case_object : match parse (bs " {""a\u0041"" : [1, 2],""b"":""x\ty""} ") with
  | Ok v => println_members v = Ok (bs "aA: [1, 2]" ++ [10%N] ++ bs "b: x" ++ [9%N] ++ bs "y" ++ [10%N])
  | Err _ => False end.
Proof. vm_compute. reflexivity. Qed.
