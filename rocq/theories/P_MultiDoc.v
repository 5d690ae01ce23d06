(** The theorems about multipaths. *)
From Verif Require Import P_Base P_Json P_Each P_Doc P_Path P_LGet P_Parts P_Ext P_Value P_GetArr P_Closed P_Multi
  M_Util M_Num M_Scan M_Value M_Path M_Valid M_Get S_Json S_Get S_Path S_Mod S_Multi.

Lemma sep_end s rest : (s = 46 \/ s = 124)%N -> rest_end (s :: rest) s rest.
Proof. intros H. right. split; auto. destruct H as [-> | ->]; reflexivity. Qed.
Lemma sep_nonzero s : (s = 46 \/ s = 124)%N -> (s =? 0)%N = false.
Proof. intros [-> | ->]; reflexivity. Qed.

Lemma multi_array_result json es vs : Forall entry_ok es -> es <> [] ->
  Forall2 (fun e v => get json (snd e) = Ok v) es vs ->
  exists v, get json (multi_array es) = Ok v /\ v_exists v = true /\ v_kind v = KArray /\
    v_json v = 91%N :: commas (map v_json (filter v_exists vs)) ++ [93%N] /\
    forall s rest, (s = 46 \/ s = 124)%N -> get json (multi_array es ++ s :: rest) = v_get v rest.
Proof.
  intros He Hn Hv. exists (marr vs). split.
  - pose proof (get_multi_array json es vs 0%N [] [] He Hn Hv ltac:(left; auto)) as E. rewrite app_nil_r in E. exact E.
  - split; [reflexivity|]. split; [reflexivity|]. split; [reflexivity|]. intros s rest Hs.
    rewrite (get_multi_array json es vs s rest _ He Hn Hv (sep_end s rest Hs)). rewrite (sep_nonzero s Hs). reflexivity.
Qed.

Lemma multi_array_shows json es vs cs : Forall entry_ok es -> es <> [] ->
  Forall2 (fun e v => get json (snd e) = Ok v) es vs ->
  Forall2 (fun v c => wf c /\ shows v c) (filter v_exists vs) cs ->
  exists v, get json (multi_array es) = Ok v /\ shows v (array_of cs).
Proof.
  intros He Hn Hv Hc. exists (marr vs). split.
  - pose proof (get_multi_array json es vs 0%N [] [] He Hn Hv ltac:(left; auto)) as E. rewrite app_nil_r in E. exact E.
  - unfold marr. assert (E : map v_json (filter v_exists vs) = map render cs /\ Forall wf cs).
    { induction Hc as [|v c l cs [H1 H2] H [IH1 IH2]]; [split; auto|]. cbn [map]. rewrite IH1, (sh_json _ _ H2). split; auto. }
    destruct E as [E Hw]. rewrite E. change (array_of cs) with (mkarr cs). rewrite <- render_mkarr.
    apply shows_owned; auto using wf_mkarr.
Qed.

Lemma multi_object_result json es vs : Forall entry_ok es -> es <> [] ->
  Forall2 (fun e v => get json (snd e) = Ok v) es vs ->
  exists v ks, get json (multi_object es) = Ok v /\ v_exists v = true /\ v_kind v = KObject /\
    Forall2 entry_key es ks /\
    v_json v = 123%N :: commas (map (fun kv => json_string (fst kv) ++ 58%N :: v_json (snd kv))
                                     (filter (fun kv => v_exists (snd kv)) (combine ks vs))) ++ [125%N] /\
    forall s rest, (s = 46 \/ s = 124)%N -> get json (multi_object es ++ s :: rest) = v_get v rest.
Proof.
  intros He Hn Hv. set (ks := map (fun e => fst (epair e)) es). exists (mobj (combine ks vs)), ks. split.
  - pose proof (get_multi_object json es vs 0%N [] [] He Hn Hv ltac:(left; auto)) as E. rewrite app_nil_r in E. exact E.
  - split; [reflexivity|]. split; [reflexivity|]. split.
    + unfold ks. clear. induction es as [|e es IH]; constructor; auto. apply epair_key.
    + split; [reflexivity|]. intros s rest Hs.
      pose proof (get_multi_object json es vs s rest _ He Hn Hv (sep_end s rest Hs)) as E. rewrite (sep_nonzero s Hs) in E. exact E.
Qed.

Lemma entry_key_unique e k k' : entry_key e k -> entry_key e k' -> k = k'.
Proof. destruct e as [[n|] p]; unfold entry_key; cbn [fst snd]; [congruence | apply path_key_unique]. Qed.

(** An entry of its own, and an entry with a colon. *)
Lemma entry_alone json p v : sub_path p -> get json p = Ok v ->
  exists w, get json (91%N :: p ++ [93%N]) = Ok w /\ v_json w = 91%N :: (if v_exists v then v_json v else []) ++ [93%N].
Proof.
  intros Hp Hv. assert (He : Forall entry_ok [(None, p)]) by (constructor; [split; [exact I | exact Hp] | constructor]).
  destruct (multi_array_result json [(None, p)] [v] He ltac:(discriminate) ltac:(constructor; auto)) as (w & W1 & _ & _ & W2 & _).
  exists w. split; [exact W1|]. rewrite W2. cbn [filter]. destruct (v_exists v); reflexivity.
Qed.
Lemma entry_split json n p v : sub_name n -> sub_path p -> get json p = Ok v ->
  get json (91%N :: (n ++ 58%N :: p) ++ [93%N]) = get json (91%N :: p ++ [93%N]).
Proof.
  intros Hn Hp Hv.
  assert (H1 : Forall entry_ok [(None, p)]) by (constructor; [split; [exact I | exact Hp] | constructor]).
  assert (H2 : Forall entry_ok [(Some n, p)]) by (constructor; [split; [exact Hn | exact Hp] | constructor]).
  pose proof (get_multi_array json [(None, p)] [v] 0%N [] [] H1 ltac:(discriminate) ltac:(constructor; auto) ltac:(left; auto)) as E1.
  pose proof (get_multi_array json [(Some n, p)] [v] 0%N [] [] H2 ltac:(discriminate) ltac:(constructor; auto) ltac:(left; auto)) as E2.
  rewrite app_nil_r in E1, E2. change (multi_array [(None, p)]) with (91%N :: p ++ [93%N]) in E1.
  change (multi_array [(Some n, p)]) with (91%N :: (n ++ 58%N :: p) ++ [93%N]) in E2. congruence.
Qed.
Lemma entry_split_object json n p v : sub_name n -> sub_path p -> get json p = Ok v ->
  exists w, get json (123%N :: (n ++ 58%N :: p) ++ [125%N]) = Ok w /\
    v_json w = 123%N :: (if v_exists v then json_string n ++ 58%N :: v_json v else []) ++ [125%N].
Proof.
  intros Hn Hp Hv. assert (He : Forall entry_ok [(Some n, p)]) by (constructor; [split; [exact Hn | exact Hp] | constructor]).
  destruct (multi_object_result json [(Some n, p)] [v] He ltac:(discriminate) ltac:(constructor; auto)) as (w & ks & W1 & _ & _ & K & W2 & _).
  exists w. split; [exact W1|]. rewrite W2. inversion K as [|? k ? ks' Hk Hk' E1 E2]; subst. inversion Hk'; subst. unfold entry_key in Hk; cbn [fst] in Hk. subst k.
  cbn [combine filter snd]. destruct (v_exists v); reflexivity.
Qed.

Definition refute_doc : text := [91; 91; 49; 93; 93]%N.
Definition refute_path : text := [64; 102; 108; 97; 116; 116; 101; 110; 58; 123; 34; 100; 34; 58; 49; 125]%N.
Lemma any_path_refuted : exists json p v w, balanced p /\ get json p = Ok v /\ v_exists v = true /\
  get json ([91%N] ++ p ++ [93%N]) = Ok w /\ v_json w <> [91%N] ++ v_json v ++ [93%N].
Proof.
  exists refute_doc, refute_path.
  destruct (get refute_doc refute_path) as [v|] eqn:E1; [|vm_compute in E1; discriminate].
  destruct (get refute_doc ([91%N] ++ refute_path ++ [93%N])) as [w|] eqn:E2; [|vm_compute in E2; discriminate].
  exists v, w. split.
  - apply (part_balanced true). apply (part_app true (firstn 9 refute_path)); [apply part_plain; reflexivity|].
    apply (pt_group true 0x7B%N [34; 100; 34; 58; 49]%N 0x7D%N []); [right; right; reflexivity | | right; right; reflexivity | apply pt_nil].
    apply (part_balanced true). apply (pt_quoted true [100%N] [58; 49]%N); [|apply part_plain; reflexivity].
    apply li_plain; [apply plainb_ok; reflexivity | apply li_nil].
  - split; [reflexivity|]. vm_compute in E1. vm_compute in E2. injection E1 as <-. injection E2 as <-. split; [reflexivity|]. split; [reflexivity|]. vm_compute. discriminate.
Qed.
