(** C87: picking results out of a multipath. *)
From Coq Require Import String List NArith ZArith.
From Verif Require Import M_Base M_Value M_Valid M_Get S_Json S_Num S_Path S_Get S_Query S_Taken S_Same S_Multi S_Compose S_Mod S_Eval S_Select P_Eval P_Total P_Select.
Import ListNotations.
Open Scope list_scope.

(** An index behind [[p1,...,pn]] picks from the results that exist. *)
Theorem C87_element : forall s es vs sep k n, valid s = Ok true -> Forall entry_ok es -> es <> [] -> Forall (fun e => tame (snd e)) es ->
  Forall2 (fun e v => get s (snd e) = Ok v) es vs -> (sep = 0x2E \/ sep = 0x7C)%N ->
  digits1 k -> digits_val k = Z.of_nat n -> (Z.of_nat n < 2 ^ 63)%Z ->
  match nth_error (filter v_exists vs) n with
  | Some u => exists v, get s (multi_array es ++ sep :: k) = Ok v /\ trimmed v u
  | None => exists v, get s (multi_array es ++ sep :: k) = Ok v /\ v_exists v = false
  end.
Proof. exact pick_element. Qed.
Print Assumptions C87_element.

(** The hash counts them. *)
Theorem C87_count : forall s es vs sep, valid s = Ok true -> Forall entry_ok es -> es <> [] -> Forall (fun e => tame (snd e)) es ->
  Forall2 (fun e v => get s (snd e) = Ok v) es vs -> (sep = 0x2E \/ sep = 0x7C)%N ->
  exists v, get s (multi_array es ++ [sep; 0x23%N]) = Ok v /\ v_kind v = KNumber /\
    int_literal (v_json v) (Z.of_nat (length (filter v_exists vs))).
Proof. exact count_found. Qed.
Print Assumptions C87_count.

(** A name behind [{k1:p1,...,kn:pn}] picks the first result that exists under that name. *)
Theorem C87_member : forall s es vs ks sep k, valid s = Ok true -> Forall entry_ok es -> es <> [] -> Forall (fun e => tame (snd e)) es ->
  Forall2 (fun e v => get s (snd e) = Ok v) es vs -> Forall2 entry_key es ks -> (sep = 0x2E \/ sep = 0x7C)%N -> plain_key k ->
  forall a u b, combine ks vs = a ++ (k, u) :: b -> v_exists u = true -> (forall u', In (k, u') a -> v_exists u' = false) ->
  exists v, get s (multi_object es ++ sep :: k) = Ok v /\ trimmed v u.
Proof. exact pick_member. Qed.
Print Assumptions C87_member.
Theorem C87_no_member : forall s es vs ks sep k, valid s = Ok true -> Forall entry_ok es -> es <> [] -> Forall (fun e => tame (snd e)) es ->
  Forall2 (fun e v => get s (snd e) = Ok v) es vs -> Forall2 entry_key es ks -> (sep = 0x2E \/ sep = 0x7C)%N -> plain_key k ->
  (forall u', In (k, u') (combine ks vs) -> v_exists u' = false) ->
  exists v, get s (multi_object es ++ sep :: k) = Ok v /\ v_exists v = false.
Proof. exact pick_no_member. Qed.
Print Assumptions C87_no_member.

(** [[p].0] and [{k:p}.k] can be replaced by [p], alone and in front of a pipe. *)
Theorem C87_array_law : forall s es vs sep k i e u, valid s = Ok true -> Forall entry_ok es -> Forall (fun e => tame (snd e)) es ->
  Forall2 (fun e v => get s (snd e) = Ok v) es vs -> (sep = 0x2E \/ sep = 0x7C)%N -> nth_error es i = Some e -> whole (snd e) ->
  nth_error vs i = Some u -> v_exists u = true -> ends_well (v_json u) ->
  digits1 k -> digits_val k = Z.of_nat (length (filter v_exists (firstn i vs))) -> (digits_val k < 2 ^ 63)%Z ->
  piped s (multi_array es ++ sep :: k) (snd e).
Proof. exact element_piped. Qed.
Print Assumptions C87_array_law.
Theorem C87_object_law : forall s es vs ks sep k i e u, valid s = Ok true -> Forall entry_ok es -> Forall (fun e => tame (snd e)) es ->
  Forall2 (fun e v => get s (snd e) = Ok v) es vs -> Forall2 entry_key es ks -> (sep = 0x2E \/ sep = 0x7C)%N ->
  nth_error es i = Some e -> whole (snd e) -> nth_error vs i = Some u -> v_exists u = true -> ends_well (v_json u) ->
  plain_key k -> nth_error ks i = Some k ->
  (forall j u', j < i -> nth_error ks j = Some k -> nth_error vs j = Some u' -> v_exists u' = false) ->
  piped s (multi_object es ++ sep :: k) (snd e).
Proof. exact member_piped. Qed.
Print Assumptions C87_object_law.

(** [[p1,...,pn]|#.x] and [[p1|x,...,pn|x]] can replace each other. *)
Theorem C87_spread : forall matches index holds ss, meaning matches index holds ss -> steps_ok ss -> ss <> [] ->
  forall s es vs, valid s = Ok true -> Forall entry_ok es -> es <> [] -> Forall (fun e => tame (snd e)) es ->
  Forall (fun e => whole (snd e)) es -> sub_path (dotted (map step_text ss)) ->
  Forall2 (fun e v => get s (snd e) = Ok v) es vs ->
  piped s (multi_array es ++ bs "|#." ++ dotted (map step_text ss)) (multi_array (map (extend (dotted (map step_text ss))) es)).
Proof. exact spread. Qed.
Print Assumptions C87_spread.

(** Blanks at the end of the document are not in the element. *)
Theorem C87_blanks : exists s, valid s = Ok true /\ ~ piped s (bs "[@this].0") (bs "@this").
Proof.
  exists (bs "{} "). split; [vm_compute; reflexivity|]. intros [H _]. vm_compute in H. destruct H as [_ J]. discriminate J.
Qed.
Print Assumptions C87_blanks.

(** A document, three paths, the second of which finds nothing. *)
Definition sdoc : list N := bs " {""a"":{""x"":[1, ""q""]},""b"":{""y"":2,""x"":null}} ".
Definition sents : list entry := [(Some (bs "k"), bs "a"); (Some (bs "k"), bs "c"); (None, bs "b.@reverse")].
Definition svals : list value := map (fun e => match get sdoc (snd e) with Ok v => v | Err _ => value_default end) sents.
Lemma sents_ok : Forall entry_ok sents.
Proof.
  assert (O : forall c k, existsb (N.eqb c) [0x2C; 0x3A; 0x22; 0x5C; 0x28; 0x29; 0x5B; 0x5D; 0x7B; 0x7D]%N = false -> ordinary k c).
  { intros c k H. left. unfold special, bracket_open, bracket_close. intros X. cbn [existsb] in H. repeat (apply Bool.orb_false_iff in H as [? H]).
    repeat match goal with E : (c =? _)%N = false |- _ => apply N.eqb_neq in E end. intuition congruence. }
  assert (P : forall t k, forallb (fun c => negb (existsb (N.eqb c) [0x2C; 0x3A; 0x22; 0x5C; 0x28; 0x29; 0x5B; 0x5D; 0x7B; 0x7D]%N)) t = true -> part k t).
  { induction t as [|c t IH]; intros k H; [constructor|]. cbn [forallb] in H. apply andb_prop in H as [H1 H2]. apply pt_plain; auto. apply O. apply Bool.negb_true_iff. exact H1. }
  repeat (apply Forall_cons || apply Forall_nil); (split; [try exact I; apply P; reflexivity|apply P; reflexivity]).
Qed.
Lemma sents_tame : Forall (fun e => tame (snd e)) sents.
Proof.
  repeat (apply Forall_cons || apply Forall_nil); (split; [|split]); intros (a & b & E); apply (f_equal (@List.length N)) in E as L;
    vm_compute in E; repeat (destruct a as [|? a]; [discriminate E|injection E as _ E]); try (destruct a; discriminate E); discriminate E.
Qed.
Lemma svals_ok : Forall2 (fun e v => get sdoc (snd e) = Ok v) sents svals.
Proof. repeat (apply Forall2_cons || apply Forall2_nil); vm_compute; reflexivity. Qed.
Lemma skeys_ok : Forall2 entry_key sents [bs "k"; bs "k"; bs "@reverse"].
Proof.
  repeat (apply Forall2_cons || apply Forall2_nil); try reflexivity. exists (bs "@reverse"). split.
  - left. exists 1. split; [split; [left; reflexivity|]|split; [|reflexivity]].
    + intros j E. injection E as <-. discriminate.
    + intros j Hj [H _]. do 11 (destruct j as [|j]; [try (apply (PeanoNat.Nat.nlt_0_r 1); exact Hj); destruct H as [H|H]; vm_compute in H; try discriminate H; exfalso; apply (PeanoNat.Nat.lt_irrefl 1 Hj)|]).
      destruct H as [H|H]; destruct j; discriminate H.
  - left. split; [|reflexivity]. vm_compute. repeat (apply Forall_cons; [repeat split; try discriminate; unfold bracket_open, bracket_close; intuition discriminate|]). constructor.
Qed.
Example C87_case_element : exists v, get sdoc (bs "[k:a,k:c,b.@reverse].1") = Ok v /\ v_json v = bs "{""x"":null,""y"":2}".
Proof.
  pose proof (C87_element sdoc sents svals 46%N (bs "1") 1 ltac:(vm_compute; reflexivity) sents_ok ltac:(discriminate) sents_tame svals_ok ltac:(left; reflexivity)) as H.
  assert (D : digits1 (bs "1")) by (split; [discriminate|repeat constructor; discriminate]). specialize (H D eq_refl eq_refl).
  destruct (nth_error (filter v_exists svals) 1) as [u|] eqn:U; [|vm_compute in U; discriminate U].
  destruct H as (v & E & _). exists v. split; [exact E|]. vm_compute in E. injection E as <-. reflexivity.
Qed.
Example C87_case_member : exists v, get sdoc (bs "{k:a,k:c,b.@reverse}|k") = Ok v /\ v_json v = bs "{""x"":[1, ""q""]}".
Proof.
  destruct (C87_member sdoc sents svals [bs "k"; bs "k"; bs "@reverse"] 124%N (bs "k") ltac:(vm_compute; reflexivity) sents_ok ltac:(discriminate) sents_tame svals_ok skeys_ok ltac:(right; reflexivity)) with (a := @nil (list N * value)) (u := nth 0 svals value_default) (b := combine [bs "k"; bs "@reverse"] (tl svals)) as (v & E & _).
  - split; [|vm_compute; repeat split; discriminate]. repeat constructor; discriminate.
  - reflexivity.
  - vm_compute. reflexivity.
  - intros ? [].
  - exists v. split; [exact E|]. vm_compute in E. injection E as <-. reflexivity.
Qed.
Example C87_case_spread : exists v, get sdoc (bs "[k:a,k:c,b.@reverse]|#.x") = Ok v /\ v_json v = bs "[[1, ""q""],null]".
Proof. eexists. split; vm_compute; reflexivity. Qed.
Example C87_case_spread_law : piped sdoc (bs "[k:a,k:c,b.@reverse]|#.x") (bs "[k:a|x,k:c|x,b.@reverse|x]").
Proof.
  destruct (simple_steps [Name (bs "x")] ltac:(vm_compute; reflexivity)) as [Ho _].
  assert (Mn : meaning match0 index0 holds0 [Name (bs "x")]).
  { apply meaning0; [exact (proj1 Ho)|]. apply safe_calm, safe_no_escape. vm_compute. intuition discriminate. }
  refine (C87_spread match0 index0 holds0 [Name (bs "x")] Mn Ho ltac:(discriminate) sdoc sents svals ltac:(vm_compute; reflexivity) sents_ok ltac:(discriminate) sents_tame _ _ svals_ok).
  - assert (C : forall k, forallb (fun c => negb (existsb (N.eqb c) [0x2E; 0x7C; 0x5C]%N)) k = true -> comp_head k -> piece k).
    { intros k H H'. left. left. split; [|exact H']. clear H'. induction k as [|c k IH]; [constructor|]. cbn [forallb] in H. apply andb_prop in H as [H1 H2].
      apply cb_char; [|auto]. apply Bool.negb_true_iff in H1. cbn [existsb] in H1. repeat (apply Bool.orb_false_iff in H1 as [? H1]).
      repeat match goal with E : (c =? _)%N = false |- _ => apply N.eqb_neq in E end. repeat split; assumption. }
    constructor; [|constructor; [|constructor; [|constructor]]].
    + apply (wh_pieces [bs "a"]); [discriminate|]. constructor; [|constructor]. apply C; [reflexivity|vm_compute; repeat split; discriminate].
    + apply (wh_pieces [bs "c"]); [discriminate|]. constructor; [|constructor]. apply C; [reflexivity|vm_compute; repeat split; discriminate].
    + apply (wh_pieces [bs "b"; bs "@reverse"]); [discriminate|]. constructor; [|constructor; [|constructor]]; [apply C; [reflexivity|vm_compute; repeat split; discriminate]|].
      right. apply P_Laws.stage_rev.
  - apply pt_plain; [|constructor]. left. unfold special, bracket_open, bracket_close. vm_compute. intuition discriminate.
Qed.
