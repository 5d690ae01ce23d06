(** Proofs about escape, unescape and pmatch. *)
From Verif Require Export P_ValidSpec.
From Verif Require Export P_Json S_Str M_Util.

(* ---------- unescape at list level ---------- *)

(** The [\uXXXX] step: code point and rest; [l] starts after the [u]. *)
Definition radix (s : bytes) : N := match from_str_radix16 s with Some r => r | None => 0xFFFD%N end.

Definition luni (l : bytes) : option (N * bytes) :=
  match l with
  | a :: b :: c :: d :: t =>
      let r := radix [a; b; c; d] in
      if utf16_is_surrogate r then
        match t with
        | x0 :: x1 :: e :: f :: g :: h :: t' =>
            if ((x0 =? 92) && (x1 =? 117))%N then
              Some (match from_str_radix16 [e; f; g; h] with
                    | Some r2 => utf16_decode r r2 | None => 0xFFFD%N end, t')
            else Some (r, t)
        | _ => Some (r, t)
        end
      else Some (r, t)
  | _ => None
  end.

Fixpoint lun (fuel : nat) (l : bytes) : bytes :=
  match fuel with
  | O => []
  | S fuel =>
      match l with
      | [] => []
      | c :: t =>
          if (c <? 32)%N then []
          else if (c =? 92)%N then
            match t with
            | [] => []
            | e :: t1 =>
                match short_escape e with
                | Some x => x :: lun fuel t1
                | None =>
                    if (e =? 117)%N then
                      match luni t1 with
                      | Some (r, t2) => encode_utf8 (char_or_replacement r) ++ lun fuel t2
                      | None => []
                      end
                    else []
                end
            end
          else c :: lun fuel t
      end
  end.

Lemma luni_length l r t : luni l = Some (r, t) -> length t + 4 <= length l.
Proof.
  unfold luni. destruct l as [|a [|b [|c [|d l]]]]; try discriminate.
  destruct (utf16_is_surrogate (radix [a; b; c; d])); [|intros [= _ <-]; simpl; lia].
  destruct l as [|x0 [|x1 [|e [|f [|g [|h l]]]]]]; try (intros [= _ <-]; simpl; lia).
  destruct ((x0 =? 92) && (x1 =? 117))%N; intros [= _ <-]; simpl; lia.
Qed.

Lemma unescape_loop_spec json : forall fuel i out,
  i <= length json -> length json - i < fuel ->
  unescape_loop fuel json i out = Ok (out ++ lun fuel (skipn i json)).
Proof.
  induction fuel as [|fuel IH]; intros i out Hi Hf; [lia|].
  cbn [unescape_loop lun].
  destruct (skipn_case json i) as [(c & t & E & Hlt)|(E & Hge)].
  2:{ rewrite eqb_skipn_nil, E by auto. rewrite app_nil_r. reflexivity. }
  rewrite (eqb_skipn _ _ _ _ E), (idx_skipn _ _ _ _ E), E. cbn [bind].
  pose proof (skipn_cons_1 _ _ _ _ E) as E1.
  destruct (c <? 32)%N. { rewrite app_nil_r. reflexivity. }
  destruct (c =? 92)%N.
  2:{ rewrite IH by lia. rewrite E1, <- app_assoc. reflexivity. }
  destruct t as [|e t1].
  { rewrite eqb_skipn_nil by (auto; lia). rewrite app_nil_r. reflexivity. }
  rewrite (eqb_skipn _ _ _ _ E1), (idx_skipn _ _ _ _ E1). cbn [bind].
  pose proof (skipn_cons_lt _ _ _ _ E1) as Hlt1. apply skipn_cons_1 in E1 as E2.
  destruct (short_escape e) as [x|].
  { rewrite IH by lia. rewrite E2, <- app_assoc. reflexivity. }
  destruct (e =? 117)%N. 2:{ rewrite app_nil_r. reflexivity. }
  pose proof (skipn_length (i + 1 + 1) json) as HL. rewrite E2 in HL.
  unfold luni.
  destruct t1 as [|a [|b [|c1 [|d t2]]]]; cbn [length] in HL;
    try (replace (length json <? i + 1 + 5) with true by (symmetry; apply Nat.ltb_lt; lia);
         rewrite app_nil_r; reflexivity).
  replace (length json <? i + 1 + 5) with false by (symmetry; apply Nat.ltb_ge; lia).
  replace (i + 1 + 5) with (i + 1 + 1 + length [a; b; c1; d]) by (simpl; lia).
  change (a :: b :: c1 :: d :: t2) with ([a; b; c1; d] ++ t2) in E2.
  rewrite (slice_skipn _ _ _ _ E2) by discriminate. cbn [bind].
  pose proof (skipn_add _ _ _ _ E2) as E3.
  set (k := i + 1 + 1 + length [a; b; c1; d]) in *.
  fold (radix [a; b; c1; d]).
  assert (Hk : k = i + 6) by (unfold k; simpl; lia).
  destruct (utf16_is_surrogate (radix [a; b; c1; d])).
  2:{ cbn [bind]. rewrite IH by lia. rewrite E3, <- app_assoc. reflexivity. }
  rewrite slice_from_ok by lia. rewrite E3. cbn [bind].
  destruct t2 as [|x0 [|x1 [|e2 [|f [|g [|h t3]]]]]]; cbn [length Nat.leb];
    try (cbn [bind]; rewrite IH by lia; rewrite E3, <- app_assoc; reflexivity).
  cbn [length] in HL.
  rewrite (idx_skipn _ _ _ _ E3). cbn [bind].
  pose proof (skipn_cons_1 _ _ _ _ E3) as E4. rewrite (idx_skipn _ _ _ _ E4). cbn [bind].
  destruct ((x0 =? 92) && (x1 =? 117))%N.
  2:{ cbn [bind]. rewrite IH by lia. rewrite E3, <- app_assoc. reflexivity. }
  apply skipn_cons_1 in E4 as E5. replace (k + 1 + 1) with (k + 2) in E5 by lia.
  change (e2 :: f :: g :: h :: t3) with ([e2; f; g; h] ++ t3) in E5.
  replace (k + 6) with (k + 2 + length [e2; f; g; h]) by (simpl; lia).
  rewrite (slice_skipn _ _ _ _ E5) by discriminate. cbn [bind].
  rewrite IH by (cbn [length]; lia).
  rewrite (skipn_add _ _ _ _ E5), <- app_assoc. reflexivity.
Qed.

(** Fuel does not matter once it exceeds the length. *)
Lemma lun_fuel : forall n m l, length l < n -> length l < m -> lun n l = lun m l.
Proof.
  induction n as [|n IH]; intros m l Hn Hm; [lia|]. destruct m as [|m]; [lia|].
  cbn [lun]. destruct l as [|c t]; auto. cbn [length] in *.
  destruct (c <? 32)%N; auto. destruct (c =? 92)%N.
  - destruct t as [|e t1]; auto. cbn [length] in *.
    destruct (short_escape e). { f_equal. apply IH; lia. }
    destruct (e =? 117)%N; auto. destruct (luni t1) as [(r, t2)|] eqn:E; auto.
    apply luni_length in E. f_equal. apply IH; lia.
  - f_equal. apply IH; lia.
Qed.

Definition un (l : bytes) : bytes := lun (S (length l)) l.

Lemma un_nil : un [] = [].
Proof. reflexivity. Qed.
Lemma un_plain c t : (32 <= c)%N -> c <> 92%N -> un (c :: t) = c :: un t.
Proof.
  intros. unfold un. cbn [length lun].
  replace (c <? 32)%N with false by lia. replace (c =? 92)%N with false by lia. reflexivity.
Qed.
Lemma un_short e x t : short_escape e = Some x -> un (92%N :: e :: t) = x :: un t.
Proof.
  intros H. unfold un.
  transitivity (match short_escape e with Some x => x :: lun (S (S (length t))) t | None => [] end).
  2:{ rewrite H. f_equal. apply lun_fuel; lia. }
  change (lun (S (length (92%N :: e :: t))) (92%N :: e :: t)) with
    (match short_escape e with
     | Some x => x :: lun (S (S (length t))) t
     | None => if (e =? 117)%N then match luni t with
         | Some (r, t2) => encode_utf8 (char_or_replacement r) ++ lun (S (S (length t))) t2
         | None => [] end else [] end).
  rewrite H. reflexivity.
Qed.
Lemma un_uni t r t2 : luni t = Some (r, t2) ->
  un (92%N :: 117%N :: t) = encode_utf8 (char_or_replacement r) ++ un t2.
Proof.
  intros. unfold un.
  change (lun (S (length (92%N :: 117%N :: t))) (92%N :: 117%N :: t)) with
    (match luni t with
     | Some (r, t2) => encode_utf8 (char_or_replacement r) ++ lun (S (S (length t))) t2
     | None => [] end).
  rewrite H. apply luni_length in H. f_equal. apply lun_fuel; lia.
Qed.

Lemma unescape_quoted b : unescape (quoted b) = Ok (un b).
Proof.
  unfold unescape, quoted. cbn [length]. rewrite app_length. cbn [length].
  replace (S (length b + 1) <? 2) with false by (symmetry; apply Nat.ltb_ge; lia).
  cbn [idx nth_error bind N.eqb Pos.eqb negb].
  rewrite usub_ok by lia. cbn [bind].
  replace (S (length b + 1) - 1) with (S (length b)) by lia.
  unfold idx at 1. cbn [nth_error]. rewrite nth_error_app2, Nat.sub_diag by lia.
  cbn [nth_error bind N.eqb Pos.eqb negb].
  rewrite slice_ok by (cbn [length]; rewrite ?app_length; cbn [length]; lia).
  cbn [bind skipn]. replace (S (length b) - 1) with (length b) by lia.
  rewrite firstn_length_app. rewrite unescape_loop_spec by lia. reflexivity.
Qed.

Lemma unescape_total s : exists t, unescape s = Ok t.
Proof.
  unfold unescape. destruct (length s <? 2) eqn:E; [eauto|]. apply Nat.ltb_ge in E.
  destruct s as [|a s]; [simpl in E; lia|]. cbn [idx nth_error bind].
  destruct (negb (a =? 34)%N); [eauto|]. rewrite usub_ok by lia. cbn [bind].
  destruct (nth_error (a :: s) (length (a :: s) - 1)) eqn:En.
  2:{ apply nth_error_None in En. lia. }
  unfold idx. rewrite En. cbn [bind]. destruct (negb (n =? 34)%N); [eauto|].
  rewrite slice_ok by lia. cbn [bind]. rewrite unescape_loop_spec by lia. eauto.
Qed.

(* ---------- escape ---------- *)

Lemma escape_byte_un c t : un (escape_byte c ++ t) = c :: un t.
Proof.
  unfold escape_byte.
  destruct ((c <? 32) || (c =? 10) || (c =? 92) || (c =? 34))%N eqn:E.
  2:{ apply un_plain; lia. }
  cbn [app].
  destruct (c =? 34)%N eqn:E1. { cbn [app]. rewrite (un_short 34 34) by reflexivity. f_equal; lia. }
  destruct (c =? 92)%N eqn:E2. { cbn [app]. rewrite (un_short 92 92) by reflexivity. f_equal; lia. }
  destruct (c =? 8)%N eqn:E3. { cbn [app]. rewrite (un_short 98 8) by reflexivity. f_equal; lia. }
  destruct (c =? 12)%N eqn:E4. { cbn [app]. rewrite (un_short 102 12) by reflexivity. f_equal; lia. }
  destruct (c =? 10)%N eqn:E5. { cbn [app]. rewrite (un_short 110 10) by reflexivity. f_equal; lia. }
  destruct (c =? 13)%N eqn:E6. { cbn [app]. rewrite (un_short 114 13) by reflexivity. f_equal; lia. }
  destruct (c =? 9)%N eqn:E7. { cbn [app]. rewrite (un_short 116 9) by reflexivity. f_equal; lia. }
  cbn [app].
  assert (Hc : (c < 32)%N) by lia.
  assert (Hin : In c (map N.of_nat (seq 0 32))).
  { apply in_map_iff. exists (N.to_nat c). split; [lia|]. apply in_seq. lia. }
  assert (G : forall c, In c (map N.of_nat (seq 0 32)) ->
     luni ([48; 48; hex_upper (N.shiftr c 4); hex_upper (N.land c 15)]%N ++ t) = Some (c, t)
     /\ encode_utf8 (char_or_replacement c) = [c]).
  { clear. intros c Hin. cbn in Hin.
    repeat (destruct Hin as [<-|Hin]; [split; reflexivity|]). destruct Hin. }
  destruct (G c Hin) as [G1 G2]. cbn [app] in G1. rewrite (un_uni _ _ _ G1), G2. reflexivity.
Qed.

Lemma escape_un s : un (flat_map escape_byte s) = s.
Proof.
  induction s as [|c t IH]; [reflexivity|]. cbn [flat_map]. rewrite escape_byte_un, IH. reflexivity.
Qed.

Lemma escape_unescape s : unescape (escape s) = Ok s.
Proof.
  unfold escape, json_string. change (34%N :: flat_map escape_byte s ++ [34%N]) with
    (quoted (flat_map escape_byte s)). rewrite unescape_quoted, escape_un. reflexivity.
Qed.

Lemma hex_upper_hex h : (h < 16)%N -> hex (hex_upper h).
Proof. unfold hex_upper, hex. intros. cls; lia. Qed.

Lemma escape_byte_chars c t : chars t -> chars (escape_byte c ++ t).
Proof.
  intros Ht. unfold escape_byte.
  assert (S : forall e, short_esc e -> chars ((92%N :: [e]) ++ t)) by (intros; apply chars_short; auto).
  destruct ((c <? 32) || (c =? 10) || (c =? 92) || (c =? 34))%N eqn:E.
  2:{ apply chars_plain; auto. unfold plain. lia. }
  destruct (c =? 34)%N; [apply S; unfold short_esc; simpl; tauto|].
  destruct (c =? 92)%N eqn:E2; [apply S; unfold short_esc; simpl; tauto|].
  destruct (c =? 8)%N; [apply S; unfold short_esc; simpl; tauto|].
  destruct (c =? 12)%N; [apply S; unfold short_esc; simpl; tauto|].
  destruct (c =? 10)%N eqn:E5; [apply S; unfold short_esc; simpl; tauto|].
  destruct (c =? 13)%N; [apply S; unfold short_esc; simpl; tauto|].
  destruct (c =? 9)%N; [apply S; unfold short_esc; simpl; tauto|].
  cbn [app]. apply chars_uni; auto; try (left; lia); apply hex_upper_hex.
  - rewrite N.shiftr_div_pow2. apply N.div_lt_upper_bound; simpl; lia.
  - change 15%N with (N.ones 4). rewrite N.land_ones. apply N.mod_lt. discriminate.
Qed.

Lemma escape_chars s : chars (flat_map escape_byte s).
Proof. induction s; [constructor|]. apply escape_byte_chars; auto. Qed.

Lemma escape_valid s : valid (escape s) = Ok true.
Proof.
  apply valid_true_iff. exists [], (escape s), [].
  split; [constructor|]. split; [apply (jv_string _ (escape_chars s))|].
  split; [constructor|]. rewrite app_nil_r. reflexivity.
Qed.

Lemma chars_no_control b : chars b -> Forall (fun c => (32 <= c)%N) b.
Proof.
  unfold plain, short_esc, hex. cbn.
  induction 1 as [|c t Hc _ IH|e t He _ IH|x1 x2 x3 x4 t H1 H2 H3 H4 _ IH].
  - constructor.
  - constructor; [unfold plain in Hc; lia | auto].
  - constructor; [lia|]. constructor; [unfold short_esc in He; cbn in He; lia | auto].
  - unfold hex in *. repeat (constructor; [lia|]). auto.
Qed.

Lemma escape_no_control s : Forall (fun c => (32 <= c)%N) (escape s).
Proof.
  unfold escape, json_string. constructor; [lia|]. apply Forall_app. split.
  - apply chars_no_control, escape_chars.
  - repeat constructor. lia.
Qed.

(** Up to its quotes and escapes, [escape] leaves alone what need not be escaped. *)
Lemma escape_plain s : Forall plain s -> escape s = quoted s.
Proof.
  intros H. unfold escape, json_string, quoted. f_equal. f_equal.
  induction H as [|c t Hc _ IH]; [reflexivity|]. cbn [flat_map]. rewrite IH.
  unfold escape_byte, plain in *.
  replace ((c <? 32) || (c =? 10) || (c =? 92) || (c =? 34))%N with false by lia. reflexivity.
Qed.

(* ---------- unescape vs RFC ---------- *)

Lemma encode_utf8_enc u : encode_utf8 u = utf8_enc u.
Proof. reflexivity. Qed.

Lemma hex_digit_val c : hex c -> hex_digit c = Some (hex_val c).
Proof. unfold hex, hex_digit, hex_val. intros. cls; cbn [andb]; try (exfalso; lia); apply f_equal; lia. Qed.

Lemma radix_hex a b c d : hex a -> hex b -> hex c -> hex d ->
  from_str_radix16 [a; b; c; d] = Some (hex4_val a b c d).
Proof.
  intros Ha Hb Hc Hd. unfold from_str_radix16.
  replace (a =? 43)%N with false by (unfold hex in Ha; lia).
  cbn [hex_digits]. rewrite (hex_digit_val a), (hex_digit_val b), (hex_digit_val c), (hex_digit_val d) by auto.
  reflexivity.
Qed.

Lemma hex_val_lt c : hex c -> (hex_val c < 16)%N.
Proof. unfold hex, hex_val. intros. cls; lia. Qed.
Lemma hex4_val_lt a b c d : hex a -> hex b -> hex c -> hex d -> (hex4_val a b c d < 0x10000)%N.
Proof.
  intros. unfold hex4_val. pose proof (hex_val_lt a H). pose proof (hex_val_lt b H0).
  pose proof (hex_val_lt c H1). pose proof (hex_val_lt d H2). lia.
Qed.

Lemma char_scalar u : scalar u -> char_or_replacement u = u.
Proof. unfold scalar, char_or_replacement. intros. replace (_ && _) with true by lia. reflexivity. Qed.

Lemma short_escape_val e : short_esc e -> short_escape e = Some (short_val e).
Proof.
  unfold short_esc. cbn.
  intros H. repeat (destruct H as [<-|H]; [reflexivity|]). destruct H.
Qed.

(** [(h << 10) | (l + 0x10000)] *)
Lemma decode_bits h l : (h < 1024)%N -> (l < 1024)%N ->
  N.lor (N.shiftl h 10) (l + 0x10000) =
  (if ((h / 64) mod 2 =? 0) then 0x10000 + h * 1024 + l else h * 1024 + l)%N.
Proof.
  intros Hh Hl.
  set (q := (h / 128)%N). set (b := ((h / 64) mod 2)%N). set (m := (h mod 64)%N).
  assert (Eh : (h = q * 128 + b * 64 + m)%N).
  { unfold q, b, m. replace 128%N with (64 * 2)%N by reflexivity.
    rewrite <- N.div_div by discriminate.
    pose proof (N.div_mod h 64 ltac:(discriminate)). pose proof (N.div_mod (h / 64) 2 ltac:(discriminate)). lia. }
  assert (Hm : (m < 64)%N) by (apply N.mod_lt; discriminate).
  assert (Hb : (b < 2)%N) by (apply N.mod_lt; discriminate).
  (* shiftl h 10 = q*2^17 + b*2^16 + m*2^10 *)
  assert (L : forall k x y, (y < 2^k)%N -> N.lor (N.shiftl x k) y = (x * 2^k + y)%N).
  { intros k x y Hy. rewrite <- N.shiftl_mul_pow2. symmetry. 
    rewrite N.add_nocarry_lxor, <- N.lxor_lor; auto.
    all: apply N.bits_inj; intros n; rewrite N.land_spec, N.bits_0.
    all: destruct (N.lt_ge_cases n k);
      [rewrite N.shiftl_spec_low by auto; reflexivity |
       replace (N.testbit y n) with false; [apply andb_false_r|] ];
      symmetry; destruct (N.eq_dec y 0) as [->|Hy0]; [apply N.bits_0|];
      apply N.bits_above_log2; apply N.log2_lt_pow2 in Hy; lia. }
  assert (E1 : N.shiftl h 10 = N.lor (N.shiftl q 17) (N.lor (N.shiftl b 16) (N.shiftl m 10))).
  { rewrite (L 16%N). rewrite (L 17%N).
    - rewrite !N.shiftl_mul_pow2. change (2^17)%N with 131072%N. change (2^16)%N with 65536%N.
      change (2^10)%N with 1024%N. lia.
    - rewrite N.shiftl_mul_pow2. change (2^16)%N with 65536%N.
      change (2^10)%N with 1024%N. change (2^17)%N with 131072%N. lia.
    - rewrite N.shiftl_mul_pow2. change (2^16)%N with 65536%N.
      change (2^10)%N with 1024%N. lia. }
  assert (E2 : (l + 65536 = N.lor (N.shiftl 1 16) l)%N).
  { rewrite (L 16%N); [|change (2^16)%N with 65536%N; lia]. change (2^16)%N with 65536%N. lia. }
  rewrite E1, E2.
  replace (N.lor (N.lor (N.shiftl q 17) (N.lor (N.shiftl b 16) (N.shiftl m 10))) (N.lor (N.shiftl 1 16) l))
    with (N.lor (N.shiftl q 17) (N.lor (N.shiftl (N.lor b 1) 16) (N.lor (N.shiftl m 10) l))).
  2:{ rewrite N.shiftl_lor. apply N.bits_inj. intros n. rewrite !N.lor_spec.
      repeat match goal with |- context [N.testbit ?a ?b] => destruct (N.testbit a b) end; reflexivity. }
  rewrite (L 10%N) by (change (2^10)%N with 1024%N; lia).
  rewrite (L 16%N) by (change (2^10)%N with 1024%N; change (2^16)%N with 65536%N; lia).
  assert (Hb1 : N.lor b 1 = 1%N).
  { assert (b = 0 \/ b = 1)%N as [->| ->] by lia; reflexivity. }
  rewrite Hb1.
  rewrite (L 17%N) by (change (2^10)%N with 1024%N; change (2^16)%N with 65536%N; change (2^17)%N with 131072%N; lia).
  change (2^10)%N with 1024%N; change (2^16)%N with 65536%N; change (2^17)%N with 131072%N.
  destruct (b =? 0)%N eqn:E; lia.
Qed.

Lemma utf16_decode_eq hi lo : high_surrogate hi -> low_surrogate lo ->
  utf16_decode hi lo = (if (((hi - 0xD800) / 64) mod 2 =? 0) then pair_value hi lo
                        else pair_value hi lo - 0x10000)%N.
Proof.
  unfold high_surrogate, low_surrogate, utf16_decode, pair_value. intros.
  replace (_ && _) with true by lia.
  rewrite decode_bits by lia. destruct (_ =? 0)%N; lia.
Qed.

Lemma odd_plane_iff hi lo : high_surrogate hi -> low_surrogate lo ->
  odd_plane hi lo <-> (((hi - 0xD800) / 64) mod 2 = 0)%N.
Proof.
  unfold high_surrogate, low_surrogate, odd_plane, pair_value. intros Hh Hl.
  replace ((65536 + (hi - 55296) * 1024 + (lo - 56320)) / 65536)%N with (1 + (hi - 55296) / 64)%N.
  - set (q := ((hi - 55296) / 64)%N).
    pose proof (N.div_mod q 2 ltac:(discriminate)).
    pose proof (N.div_mod (1 + q) 2 ltac:(discriminate)).
    pose proof (N.mod_lt q 2 ltac:(discriminate)). pose proof (N.mod_lt (1 + q) 2 ltac:(discriminate)).
    lia.
  - set (h := (hi - 55296)%N). set (l := (lo - 56320)%N).
    pose proof (N.div_mod h 64 ltac:(discriminate)).
    pose proof (N.mod_lt h 64 ltac:(discriminate)).
    apply N.div_unique with (r := ((h mod 64) * 1024 + l)%N); unfold l; lia.
Qed.

Lemma pair_value_scalar hi lo : high_surrogate hi -> low_surrogate lo -> scalar (pair_value hi lo).
Proof. unfold high_surrogate, low_surrogate, pair_value, scalar. lia. Qed.

Lemma surrogate_iff u : utf16_is_surrogate u = false <-> (u < 0xD800 \/ 0xE000 <= u)%N.
Proof. unfold utf16_is_surrogate. lia. Qed.

Lemma un_denotes b t : denotes_odd b t -> un b = t.
Proof.
  induction 1 as [|c b t Hc _ IH|e b t He _ IH
    |h1 h2 h3 h4 b t H1 H2 H3 H4 Hs _ IH
    |h1 h2 h3 h4 l1 l2 l3 l4 b t H1 H2 H3 H4 L1 L2 L3 L4 Hh Hl Ho _ IH].
  - reflexivity.
  - unfold plain in Hc. rewrite un_plain by lia. congruence.
  - rewrite (un_short _ _ _ (short_escape_val e He)). congruence.
  - unfold u_escape. cbn [app].
    rewrite (un_uni _ (hex4_val h1 h2 h3 h4) b).
    + rewrite char_scalar by auto. rewrite encode_utf8_enc. congruence.
    + unfold luni, radix. rewrite radix_hex by auto.
      replace (utf16_is_surrogate _) with false; auto.
      symmetry. apply surrogate_iff. unfold scalar in Hs. lia.
  - unfold u_escape. cbn [app].
    rewrite (un_uni _ (pair_value (hex4_val h1 h2 h3 h4) (hex4_val l1 l2 l3 l4)) b).
    + rewrite char_scalar by (apply pair_value_scalar; auto). rewrite encode_utf8_enc. congruence.
    + unfold luni, radix. rewrite !radix_hex by auto.
      replace (utf16_is_surrogate _) with true by (unfold utf16_is_surrogate, high_surrogate in *; lia).
      cbn [N.eqb Pos.eqb andb]. rewrite utf16_decode_eq by auto.
      apply odd_plane_iff in Ho; auto. rewrite Ho. reflexivity.
Qed.

Definition utf8_dec (l : bytes) : N :=
  match l with
  | [a] => a
  | [a; b] => (a - 0xC0) * 64 + (b - 0x80)
  | [a; b; c] => ((a - 0xE0) * 64 + (b - 0x80)) * 64 + (c - 0x80)
  | [a; b; c; d] => (((a - 0xF0) * 64 + (b - 0x80)) * 64 + (c - 0x80)) * 64 + (d - 0x80)
  | _ => 0
  end%N.

Lemma utf8_dec_enc u : utf8_dec (utf8_enc u) = u.
Proof.
  unfold utf8_enc.
  assert (D : forall x, exists q r, (x / 64 = q /\ x mod 64 = r /\ x = 64 * q + r /\ r < 64)%N).
  { intros x. exists (x / 64)%N, (x mod 64)%N. repeat split; auto.
    - apply N.div_mod. discriminate.
    - apply N.mod_lt. discriminate. }
  replace (u / 4096)%N with (u / 64 / 64)%N by (rewrite N.div_div by discriminate; reflexivity).
  replace (u / 262144)%N with (u / 64 / 64 / 64)%N by (rewrite !N.div_div by discriminate; reflexivity).
  destruct (D u) as (q1 & r1 & -> & -> & E1 & H1).
  destruct (D q1) as (q2 & r2 & -> & -> & E2 & H2).
  destruct (D q2) as (q3 & r3 & -> & -> & E3 & H3). clear D.
  destruct (u <? 128)%N; [reflexivity|].
  destruct (u <? 2048)%N; [cbn [utf8_dec]; lia|].
  destruct (u <? 65536)%N; cbn [utf8_dec]; lia.
Qed.

Lemma utf8_enc_inj u v : utf8_enc u = utf8_enc v -> u = v.
Proof. intros E. rewrite <- (utf8_dec_enc u), <- (utf8_dec_enc v), E. reflexivity. Qed.

(** Exactness on surrogate pairs. *)
Lemma unescape_pair_exact h1 h2 h3 h4 l1 l2 l3 l4 :
  hex h1 -> hex h2 -> hex h3 -> hex h4 -> hex l1 -> hex l2 -> hex l3 -> hex l4 ->
  high_surrogate (hex4_val h1 h2 h3 h4) -> low_surrogate (hex4_val l1 l2 l3 l4) ->
  (unescape (quoted (u_escape h1 h2 h3 h4 ++ u_escape l1 l2 l3 l4)) =
     Ok (utf8_enc (pair_value (hex4_val h1 h2 h3 h4) (hex4_val l1 l2 l3 l4)))
   <-> odd_plane (hex4_val h1 h2 h3 h4) (hex4_val l1 l2 l3 l4)).
Proof.
  intros H1 H2 H3 H4 L1 L2 L3 L4 Hh Hl.
  set (hi := hex4_val h1 h2 h3 h4) in *. set (lo := hex4_val l1 l2 l3 l4) in *.
  rewrite unescape_quoted. unfold u_escape. cbn [app].
  assert (E : luni (h1 :: h2 :: h3 :: h4 :: 92%N :: 117%N :: l1 :: l2 :: l3 :: l4 :: []) =
     Some (utf16_decode hi lo, [])).
  { unfold luni, radix. rewrite !radix_hex by auto. fold hi lo.
    replace (utf16_is_surrogate _) with true by (unfold utf16_is_surrogate, high_surrogate in *; lia).
    reflexivity. }
  rewrite (un_uni _ _ _ E), un_nil, app_nil_r, encode_utf8_enc.
  rewrite (odd_plane_iff hi lo) by auto. rewrite utf16_decode_eq by auto.
  destruct (N.eqb_spec (((hi - 55296) / 64) mod 2)%N 0%N) as [E0|E0].
  - rewrite char_scalar by (apply pair_value_scalar; auto). tauto.
  - split; [|tauto]. intros [= E1]. exfalso.
    apply utf8_enc_inj in E1.
    unfold char_or_replacement, pair_value, high_surrogate, low_surrogate in *.
    destruct (_ && _) in E1; lia.
Qed.
