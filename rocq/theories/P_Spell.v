(** The exact result of [escape]. *)
From Coq Require Import Lia.
From Verif Require Import M_Base M_Util S_Json S_Str P_Base P_Json P_Valid P_Str.

Lemma spelling_ifs c : spelling c =
  if (c =? 8)%N then [92; 98]%N else if (c =? 9)%N then [92; 116]%N else if (c =? 10)%N then [92; 110]%N else
  if (c =? 12)%N then [92; 102]%N else if (c =? 13)%N then [92; 114]%N else if (c =? 34)%N then [92; 34]%N else
  if (c =? 92)%N then [92; 92]%N else
  if (c <? 32)%N then u_escape 48 48 (upper_digit (c / 16)) (upper_digit (c mod 16)) else [c].
Proof. unfold spelling. destruct c as [|p]; [reflexivity|]. do 7 (try (destruct p as [p|p|]; try reflexivity)). Qed.

Lemma small_cases (P : N -> Prop) : (forall n, n < 32 -> P (N.of_nat n)) -> forall c, (c < 32)%N -> P c.
Proof. intros H c Hc. rewrite <- (N2Nat.id c). apply H. lia. Qed.

Lemma escape_spelling c : escape_byte c = spelling c.
Proof.
  destruct (N.ltb_spec c 32) as [H|H].
  - revert c H. apply small_cases. intros n Hn. do 32 (destruct n as [|n]; [reflexivity|]). lia.
  - rewrite spelling_ifs. unfold escape_byte. replace (c <? 32)%N with false by lia.
    replace (c =? 10)%N with false by lia. replace (c =? 8)%N with false by lia. replace (c =? 9)%N with false by lia.
    replace (c =? 12)%N with false by lia. replace (c =? 13)%N with false by lia. cbn [orb].
    destruct (N.eqb_spec c 34) as [->|H1]; [reflexivity|]. destruct (N.eqb_spec c 92) as [->|H2]; reflexivity.
Qed.
Lemma escape_exact s : escape s = quoted (concat (map spelling s)).
Proof.
  unfold escape, json_string, quoted. f_equal. f_equal. rewrite flat_map_concat_map. f_equal. apply map_ext, escape_spelling.
Qed.

Lemma spelling_denotes ok c b t : denotes_if ok b t -> denotes_if ok (spelling c ++ b) (c :: t).
Proof.
  intros H. assert (S : forall e x, short_esc e -> short_val e = x -> denotes_if ok ([92; e]%N ++ b) (x :: t)).
  { intros e x He <-. apply den_short; auto. }
  assert (U : forall a d x, hex a -> hex d -> utf8_enc (hex4_val 48 48 a d) = [x] -> scalar (hex4_val 48 48 a d) ->
    denotes_if ok (u_escape 48 48 a d ++ b) (x :: t)).
  { intros a d x Ha Hd E Hs. change (x :: t) with ([x] ++ t). rewrite <- E. apply den_uni; auto; left; lia. }
  destruct (N.ltb_spec c 32) as [Hc|Hc].
  - revert c Hc. apply small_cases. intros n Hn.
    do 32 (destruct n as [|n]; [first [apply S; [cbn; tauto|reflexivity] |
      apply U; [unfold hex; vm_compute; intuition discriminate|unfold hex; vm_compute; intuition discriminate|reflexivity|left; reflexivity]]|]). lia.
  - rewrite spelling_ifs. replace (c =? 10)%N with false by lia. replace (c =? 8)%N with false by lia. replace (c =? 9)%N with false by lia.
    replace (c =? 12)%N with false by lia. replace (c =? 13)%N with false by lia. replace (c <? 32)%N with false by lia.
    destruct (N.eqb_spec c 34) as [->|H1]; [apply S; [cbn; tauto|reflexivity]|].
    destruct (N.eqb_spec c 92) as [->|H2]; [apply S; [cbn; tauto|reflexivity]|].
    apply den_plain; auto. unfold plain. lia.
Qed.
Lemma escape_denotes s : exists b, escape s = quoted b /\ denotes b s.
Proof.
  exists (concat (map spelling s)). split; [apply escape_exact|]. induction s as [|c s IH]; [constructor|]. cbn [map concat].
  apply spelling_denotes, IH.
Qed.

Lemma spelling_length c : length (spelling c) <= 6.
Proof.
  rewrite spelling_ifs. repeat match goal with |- context [if ?b then _ else _] => destruct b; [cbn; lia|] end. cbn. lia.
Qed.
Lemma spelling_high c : (128 <= c)%N -> spelling c = [c].
Proof.
  intros H. rewrite spelling_ifs. replace (c =? 10)%N with false by lia. replace (c =? 8)%N with false by lia. replace (c =? 9)%N with false by lia.
  replace (c =? 12)%N with false by lia. replace (c =? 13)%N with false by lia. replace (c <? 32)%N with false by lia.
  replace (c =? 34)%N with false by lia. replace (c =? 92)%N with false by lia. reflexivity.
Qed.
Lemma enc_length u : length (concat (map spelling (utf8_enc u))) <= 6.
Proof.
  unfold utf8_enc. destruct (u <? 128)%N; [cbn [map concat]; rewrite app_nil_r; apply spelling_length|].
  destruct (u <? 2048)%N; [|destruct (u <? 65536)%N]; cbn [map concat]; rewrite !spelling_high by lia; cbn; lia.
Qed.
Lemma escape_shortest b s : denotes b s -> length (escape s) <= length (quoted b).
Proof.
  intros H. rewrite escape_exact. unfold quoted. cbn [length]. rewrite !app_length. cbn [length].
  enough (length (concat (map spelling s)) <= length b) by lia.
  induction H as [|c b t Hc _ IH|e b t He _ IH|h1 h2 h3 h4 b t _ _ _ _ _ _ IH|h1 h2 h3 h4 l1 l2 l3 l4 b t _ _ _ _ _ _ _ _ _ _ _ _ IH].
  - cbn. lia.
  - cbn [map concat length]. rewrite app_length. unfold plain in Hc. rewrite spelling_ifs.
    replace (c =? 10)%N with false by lia. replace (c =? 8)%N with false by lia. replace (c =? 9)%N with false by lia.
    replace (c =? 12)%N with false by lia. replace (c =? 13)%N with false by lia. replace (c <? 32)%N with false by lia.
    replace (c =? 34)%N with false by lia. replace (c =? 92)%N with false by lia. cbn [length]. lia.
  - cbn [map concat length]. rewrite app_length. enough (length (spelling (short_val e)) <= 2) by lia.
    cbn in He. repeat (destruct He as [<-|He]; [cbn; lia|]). destruct He.
  - rewrite map_app, concat_app, !app_length. pose proof (enc_length (hex4_val h1 h2 h3 h4)). cbn [u_escape length]. lia.
  - rewrite map_app, concat_app, !app_length. match goal with |- length (concat (map spelling (utf8_enc ?u))) + _ <= _ => pose proof (enc_length u) end.
    cbn [u_escape length]. lia.
Qed.
