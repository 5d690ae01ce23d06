(** The pretty printer as total functions of the suffix. *)
From Verif Require Import P_Base P_Valid P_Str P_Scan P_Each P_Parts P_Ugly M_Pretty.

Definition seg (buf : bytes) (vs ve : nat) : bytes := firstn (ve - vs) (skipn vs buf).

(** A sortable member: raw name, start and end in the output. *)
Definition kpair : Type := bytes * nat * nat.
Definition kp_key (p : kpair) : bytes := fst (fst p).
Definition kp_vs (p : kpair) : nat := snd (fst p).
Definition kp_ve (p : kpair) : nat := snd p.

Definition kle (a b : kpair) : bool :=
  match bcmp (kp_key a) (kp_key b) with
  | Lt => true
  | Gt => false
  | Eq => kp_vs a <=? kp_vs b
  end.
Fixpoint kinsert (x : kpair) (l : list kpair) : list kpair :=
  match l with
  | [] => [x]
  | y :: t => if kle x y then x :: l else y :: kinsert x t
  end.
Fixpoint ksort (l : list kpair) : list kpair :=
  match l with
  | [] => []
  | x :: t => kinsert x (ksort t)
  end.

Fixpoint ljoin (buf : bytes) (ps : list kpair) : bytes :=
  match ps with
  | [] => []
  | p :: t => seg buf (kp_vs p) (kp_ve p) ++ match t with [] => [] | _ => [44; 10]%N end ++ ljoin buf t
  end.
Definition lsort_pairs (buf : bytes) (ps : list kpair) : bytes :=
  match ps with
  | [] => buf
  | p :: _ => firstn (kp_vs p) buf ++ ljoin buf (ksort ps)
  end.

Definition lnl (buf : bytes) : bytes :=
  if (last buf 0 =? 32)%N then removelast buf ++ [10%N] else buf ++ [10%N].

Section pretty.
Variables (width : Z) (prefix : bytes) (sort_keys : bool).

Definition lclose (pretty : bool) (open : N) (indent : bytes) (tabs nl : Z) (n : nat)
    (ps : list kpair) (buf : bytes) : bytes * Z :=
  if pretty then
    let buf := if (open =? 123)%N && sort_keys then lsort_pairs buf ps else buf in
    let '(buf, nl) :=
      if 0 <? n then (if (last buf 0 =? 32)%N then buf else buf ++ [10%N], Z.of_nat (length buf))
      else (buf, nl) in
    (if (last buf 0 =? open)%N then buf else extend_tabs buf prefix indent tabs, nl)
  else (buf, nl).

Definition lcomma (open : N) (n : nat) (buf : bytes) : bytes :=
  if 0 <? n then
    if negb (width =? -1)%Z && (open =? 91)%N then buf ++ [44; 32]%N else buf ++ [44]%N
  else buf.

Definition lstart_item (pretty : bool) (indent : bytes) (tabs nl : Z) (buf : bytes) : bytes * Z :=
  if pretty then (extend_tabs (lnl buf) prefix indent (tabs + 1), Z.of_nat (length buf)) else (buf, nl).

Definition lkey (pretty : bool) (open : N) (t l buf : bytes) : bytes * bytes :=
  if (open =? 123)%N then
    (buf ++ fst (lpstr t) ++ [58%N] ++ (if pretty then [32%N] else []), snd (lpstr t))
  else (buf, l).

(** The raw name of the member starting at a quote. *)
Definition lname (t : bytes) : bytes := match split_str t with Some (b, _) => b | None => [] end.

Fixpoint lpany (fuel : nat) (buf l : bytes) (pretty : bool) (indent : bytes) (tabs nl max : Z)
    (depth : nat) : bytes * bytes * Z * bool :=
  match fuel with
  | O => (buf, [], nl, true)
  | S fuel =>
      let l := dropw starts_value l in
      match l with
      | [] => (buf, [], nl, true)
      | c :: t =>
          if (c =? 34)%N then (buf ++ fst (lpstr t), snd (lpstr t), nl, true)
          else if (((48 <=? c) && (c <=? 57)) || (c =? 45))%N then
            (buf ++ c :: upto t (dropw pnum_stop t), dropw pnum_stop t, nl, true)
          else if (c =? 123)%N then
            lpobj fuel buf l 123 125 pretty indent tabs nl max (depth + 1)
          else if (c =? 91)%N then
            lpobj fuel buf l 91 93 pretty indent tabs nl max (depth + 1)
          else if (c =? 116)%N then (buf ++ [116; 114; 117; 101]%N, skipn 4 l, nl, true)
          else if (c =? 102)%N then (buf ++ [102; 97; 108; 115; 101]%N, skipn 5 l, nl, true)
          else (buf ++ [110; 117; 108; 108]%N, skipn 4 l, nl, true)
      end
  end
with lpobj (fuel : nat) (buf l : bytes) (open close : N) (pretty : bool) (indent : bytes)
    (tabs nl max : Z) (depth : nat) : bytes * bytes * Z * bool :=
  match fuel with
  | O => (buf, [], nl, true)
  | S fuel =>
      if depth =? MAX_DEPTH then (buf ++ lugly l, [], nl, true)
      else
        let full := lploop fuel (buf ++ [open]) (tl l) open close pretty indent tabs nl max depth [] 0 in
        if (0 <? width)%Z then
          if pretty && (open =? 91)%N && (max =? -1)%Z then
            let max1 := (width - (Z.of_nat (length buf) - nl))%Z in
            if (3 <? max1)%Z then
              let '(buf1, l1, _, ok) := lpobj fuel buf l 91 93 false [] 0 0 max1 depth in
              if ok && (Z.of_nat (length buf1) - Z.of_nat (length buf) <=? max1)%Z
              then (buf1, l1, nl, true)
              else full
            else full
          else if negb (max =? -1)%Z && (open =? 123)%N then (buf, l, nl, false)
          else full
        else full
  end
with lploop (fuel : nat) (buf l : bytes) (open close : N) (pretty : bool) (indent : bytes)
    (tabs nl max : Z) (depth : nat) (ps : list kpair) (n : nat) : bytes * bytes * Z * bool :=
  match fuel with
  | O => (buf, [], nl, true)
  | S fuel =>
      match l with
      | [] => (buf, [], nl, negb (open =? 123)%N)
      | c :: t =>
          if (c <=? 32)%N then lploop fuel buf t open close pretty indent tabs nl max depth ps n
          else if (c =? close)%N then
            let '(buf, nl) := lclose pretty open indent tabs nl n ps buf in
            (buf ++ [close], t, nl, negb (open =? 123)%N)
          else if (open =? 91)%N || (c =? 34)%N then
            let buf1 := lcomma open n buf in
            let '(buf2, nl2) := lstart_item pretty indent tabs nl buf1 in
            let '(buf3, l3) := lkey pretty open t l buf2 in
            let '(buf4, l4, nl4, ok) := lpany fuel buf3 l3 pretty indent (tabs + 1) nl2 max depth in
            if negb (max =? -1)%Z && negb ok then (buf4, l4, nl4, false)
            else
              lploop fuel buf4 l4 open close pretty indent tabs nl4 max depth
                (if pretty && (open =? 123)%N && sort_keys
                 then ps ++ [(lname t, length (lnl buf1), length buf4)] else ps) (n + 1)
          else lploop fuel buf t open close pretty indent tabs nl max depth ps n
      end
  end.

(* ---------- unfolding ---------- *)

Lemma lpany_S (fuel : nat) (buf l : bytes) (pretty : bool) (indent : bytes) (tabs nl max : Z) (depth : nat) :
  lpany (S fuel) buf l pretty indent tabs nl max depth =
    (let l := dropw starts_value l in
      match l with
      | [] => (buf, [], nl, true)
      | c :: t =>
          if (c =? 34)%N then (buf ++ fst (lpstr t), snd (lpstr t), nl, true)
          else if (((48 <=? c) && (c <=? 57)) || (c =? 45))%N then
            (buf ++ c :: upto t (dropw pnum_stop t), dropw pnum_stop t, nl, true)
          else if (c =? 123)%N then
            lpobj fuel buf l 123 125 pretty indent tabs nl max (depth + 1)
          else if (c =? 91)%N then
            lpobj fuel buf l 91 93 pretty indent tabs nl max (depth + 1)
          else if (c =? 116)%N then (buf ++ [116; 114; 117; 101]%N, skipn 4 l, nl, true)
          else if (c =? 102)%N then (buf ++ [102; 97; 108; 115; 101]%N, skipn 5 l, nl, true)
          else (buf ++ [110; 117; 108; 108]%N, skipn 4 l, nl, true)
      end).
Proof. reflexivity. Qed.

Lemma lpobj_S (fuel : nat) (buf l : bytes) (open close : N) (pretty : bool) (indent : bytes) (tabs nl max : Z) (depth : nat) :
  lpobj (S fuel) buf l open close pretty indent tabs nl max depth =
    (if depth =? MAX_DEPTH then (buf ++ lugly l, [], nl, true)
      else
        let full := lploop fuel (buf ++ [open]) (tl l) open close pretty indent tabs nl max depth [] 0 in
        if (0 <? width)%Z then
          if pretty && (open =? 91)%N && (max =? -1)%Z then
            let max1 := (width - (Z.of_nat (length buf) - nl))%Z in
            if (3 <? max1)%Z then
              let '(buf1, l1, _, ok) := lpobj fuel buf l 91 93 false [] 0 0 max1 depth in
              if ok && (Z.of_nat (length buf1) - Z.of_nat (length buf) <=? max1)%Z
              then (buf1, l1, nl, true)
              else full
            else full
          else if negb (max =? -1)%Z && (open =? 123)%N then (buf, l, nl, false)
          else full
        else full).
Proof. reflexivity. Qed.

Lemma lploop_S (fuel : nat) (buf l : bytes) (open close : N) (pretty : bool) (indent : bytes) (tabs nl max : Z) (depth : nat) (ps : list kpair) (n : nat) :
  lploop (S fuel) buf l open close pretty indent tabs nl max depth ps n =
    (match l with
      | [] => (buf, [], nl, negb (open =? 123)%N)
      | c :: t =>
          if (c <=? 32)%N then lploop fuel buf t open close pretty indent tabs nl max depth ps n
          else if (c =? close)%N then
            let '(buf, nl) := lclose pretty open indent tabs nl n ps buf in
            (buf ++ [close], t, nl, negb (open =? 123)%N)
          else if (open =? 91)%N || (c =? 34)%N then
            let buf1 := lcomma open n buf in
            let '(buf2, nl2) := lstart_item pretty indent tabs nl buf1 in
            let '(buf3, l3) := lkey pretty open t l buf2 in
            let '(buf4, l4, nl4, ok) := lpany fuel buf3 l3 pretty indent (tabs + 1) nl2 max depth in
            if negb (max =? -1)%Z && negb ok then (buf4, l4, nl4, false)
            else
              lploop fuel buf4 l4 open close pretty indent tabs nl4 max depth
                (if pretty && (open =? 123)%N && sort_keys
                 then ps ++ [(lname t, length (lnl buf1), length buf4)] else ps) (n + 1)
          else lploop fuel buf t open close pretty indent tabs nl max depth ps n
      end).
Proof. reflexivity. Qed.

(* ---------- progress and prefixes ---------- *)

Definition ext (buf buf' : bytes) : Prop := exists x, buf' = buf ++ x.
Lemma ext_refl a : ext a a.
Proof. exists []. rewrite app_nil_r. reflexivity. Qed.
Lemma ext_trans a b c : ext a b -> ext b c -> ext a c.
Proof. intros [x ->] [y ->]. exists (x ++ y). rewrite app_assoc. reflexivity. Qed.
Lemma ext_app a x : ext a (a ++ x).
Proof. exists x. reflexivity. Qed.
Lemma ext_length a b : ext a b -> length a <= length b.
Proof. intros [x ->]. rewrite app_length. lia. Qed.
Lemma ext_firstn a b : ext a b -> firstn (length a) b = a.
Proof. intros [x ->]. apply firstn_length_app. Qed.
Lemma ext_firstn_le a b n : ext a b -> n <= length a -> firstn n b = firstn n a.
Proof. intros [x ->] H. rewrite firstn_app. replace (n - length a) with 0 by lia. rewrite firstn_O, app_nil_r. reflexivity. Qed.
Lemma ext_of_firstn a b : firstn (length a) b = a -> ext a b.
Proof. intros H. exists (skipn (length a) b). rewrite <- H at 1. symmetry. apply firstn_skipn. Qed.

Lemma last_app {A} (l : list A) x d : last (l ++ [x]) d = x.
Proof. apply last_last. Qed.

Lemma lnl_ext base buf : ext base buf -> (length base < length buf \/ (last buf 0 =? 32)%N = false) -> ext base (lnl buf).
Proof.
  intros Hb Hc. unfold lnl. destruct (last buf 0 =? 32)%N eqn:E.
  - destruct Hc as [Hc|]; [|discriminate]. destruct Hb as [x ->].
    destruct (app_last_case x) as [->|(y & z & ->)].
    + rewrite app_nil_r in Hc. lia.
    + rewrite app_assoc, removelast_last, <- app_assoc. apply ext_app.
  - eapply ext_trans; [exact Hb | apply ext_app].
Qed.
Lemma lnl_length buf : buf <> [] -> length buf <= length (lnl buf) /\ 0 < length (lnl buf).
Proof.
  intros H. unfold lnl. destruct (app_last_case buf) as [->|(y & z & ->)]; [congruence|].
  destruct (_ =? 32)%N; rewrite ?removelast_last, ?app_length; simpl; lia.
Qed.

(** Members recorded so far lie behind [B]. *)
Definition ps_ok (B : nat) (buf : bytes) (ps : list kpair) : Prop :=
  Forall (fun p => B <= kp_vs p /\ kp_vs p <= kp_ve p /\ kp_ve p <= length buf) ps.

Lemma ps_ok_ext B buf buf' ps : length buf <= length buf' -> ps_ok B buf ps -> ps_ok B buf' ps.
Proof. intros H. apply Forall_impl. intros p. lia. Qed.

Lemma lsort_ext base buf ps : ext base buf -> ps_ok (length base) buf ps -> ext base (lsort_pairs buf ps).
Proof.
  intros Hb Hp. unfold lsort_pairs. destruct ps as [|p ps]; auto.
  inversion Hp as [|? ? [H1 [H2 H3]] _]; subst.
  destruct Hb as [x ->].
  replace (firstn (kp_vs p) (base ++ x)) with (base ++ firstn (kp_vs p - length base) x).
  2:{ rewrite <- firstn_app_2. f_equal. lia. } rewrite <- !app_assoc. apply ext_app.
Qed.

Lemma lclose_ext base pretty open indent tabs nl n ps buf :
  ext base buf -> ps_ok (length base) buf ps ->
  ext base (fst (lclose pretty open indent tabs nl n ps buf)).
Proof.
  intros Hb Hp. unfold lclose. destruct pretty; auto.
  assert (H1 : ext base (if (open =? 123)%N && sort_keys then lsort_pairs buf ps else buf)).
  { destruct (_ && _); auto using lsort_ext. }
  set (b1 := if (open =? 123)%N && sort_keys then lsort_pairs buf ps else buf) in *. clearbody b1.
  destruct (0 <? n).
  - cbn [fst].
    assert (H2 : ext base (if (last b1 0 =? 32)%N then b1 else b1 ++ [10%N])).
    { destruct (_ =? 32)%N; auto. eapply ext_trans; [exact H1 | apply ext_app]. }
    destruct (_ =? open)%N; auto. unfold extend_tabs. eapply ext_trans; [exact H2 | apply ext_app].
  - cbn [fst]. destruct (_ =? open)%N; auto. unfold extend_tabs. eapply ext_trans; [exact H1 | apply ext_app].
Qed.

Lemma lcomma_ext open n buf : ext buf (lcomma open n buf).
Proof. unfold lcomma. destruct (0 <? n); [|apply ext_refl]. destruct (_ && _); apply ext_app. Qed.

Lemma last_nonempty_ext {A} (a : list A) x d : x <> [] -> last (a ++ x) d = last x d.
Proof.
  intros H. destruct (app_last_case x) as [->|(y & z & ->)]; [congruence|].
  rewrite app_assoc, !last_last. reflexivity.
Qed.

(** Starting an item keeps what was written before. *)
Lemma start_ext open n buf : (n = 0 -> (last buf 0 =? 32)%N = false) -> ext buf (lnl (lcomma open n buf)).
Proof.
  intros H. apply lnl_ext; [apply lcomma_ext|]. unfold lcomma. destruct (Nat.ltb_spec 0 n).
  - left. destruct (_ && _); rewrite app_length; simpl; lia.
  - right. apply H. lia.
Qed.
Lemma start_item_ext open n pretty indent tabs nl buf b nl' :
  (n = 0 -> (last buf 0 =? 32)%N = false) ->
  lstart_item pretty indent tabs nl (lcomma open n buf) = (b, nl') ->
  ext buf b /\ (pretty = true -> ext (lnl (lcomma open n buf)) b).
Proof.
  intros H. unfold lstart_item. destruct pretty; intros [= <- <-].
  - split; [|intros _; apply ext_app].
    eapply ext_trans; [apply (start_ext open n buf H) | apply ext_app].
  - split; [apply lcomma_ext | discriminate].
Qed.
Lemma lkey_ext pretty open t l buf b r : lkey pretty open t l buf = (b, r) -> ext buf b.
Proof. unfold lkey. destruct (_ =? 123)%N; intros [= <- <-]; [apply ext_app | apply ext_refl]. Qed.

Lemma lpstr_short t : length (snd (lpstr t)) <= length t.
Proof.
  unfold lpstr. destruct (split_str t) as [(b, r)|] eqn:E; cbn [snd]; [|simpl; lia].
  apply split_rest in E. lia.
Qed.

Lemma tl_short (l : bytes) : length (tl l) <= length l.
Proof. destruct l; simpl; lia. Qed.

(** The output is extended, the input gets shorter. *)
Definition stops (max : Z) (ok : bool) : bool := negb (max =? -1)%Z && negb ok.

Lemma skipn_short {A} n (l : list A) : length (skipn n l) <= length l.
Proof. rewrite skipn_length. lia. Qed.

Lemma lp_progress fuel :
  (forall buf l pretty indent tabs nl max depth b r nl' ok,
    lpany fuel buf l pretty indent tabs nl max depth = (b, r, nl', ok) ->
    ext buf b /\ length r <= length l /\ (stops max ok = false -> l <> [] -> length r < length l)) /\
  (forall buf l open close pretty indent tabs nl max depth b r nl' ok,
    (open =? 32)%N = false ->
    lpobj fuel buf l open close pretty indent tabs nl max depth = (b, r, nl', ok) ->
    ext buf b /\ length r <= length l /\ (stops max ok = false -> l <> [] -> length r < length l)) /\
  (forall buf l open close pretty indent tabs nl max depth ps n b r nl' ok base,
    ext base buf -> ps_ok (length base) buf ps -> (n = 0 -> (last buf 0 =? 32)%N = false) ->
    lploop fuel buf l open close pretty indent tabs nl max depth ps n = (b, r, nl', ok) ->
    ext base b /\ length r <= length l).
Proof.
  induction fuel as [|fuel (IHa & IHo & IHl)].
  { repeat split; intros; cbn in *;
      repeat match goal with H : (_, _, _, _) = _ |- _ => injection H as <- <- <- <- end;
      auto using ext_refl; try (simpl; lia); destruct l; simpl; try congruence; lia. }
  split; [|split].
  - intros buf l pretty indent tabs nl max depth b r nl' ok. cbn [lpany].
    pose proof (suf_length _ _ (suf_dropw starts_value l)) as Hd.
    destruct (dropw starts_value l) as [|c t] eqn:El.
    { intros [= <- <- <- <-]. split; [apply ext_refl|]. split; [simpl; lia|].
      intros _ H. destruct l; [congruence | simpl; lia]. }
    cbn [length] in Hd.
    destruct (c =? 34)%N.
    { intros [= <- <- <- <-]. split; [apply ext_app|]. pose proof (lpstr_short t). lia. }
    destruct (_ || _).
    { intros [= <- <- <- <-]. split; [apply ext_app|].
      pose proof (suf_length _ _ (suf_dropw pnum_stop t)). lia. }
    destruct (c =? 123)%N.
    { intros H. apply IHo in H; auto. cbn [length] in H. destruct H as (H1 & H2 & H3).
      split; auto. split; [lia|]. intros Hs _. specialize (H3 Hs). assert (c :: t <> []) by congruence. lia. }
    destruct (c =? 91)%N.
    { intros H. apply IHo in H; auto. cbn [length] in H. destruct H as (H1 & H2 & H3).
      split; auto. split; [lia|]. intros Hs _. specialize (H3 Hs). assert (c :: t <> []) by congruence. lia. }
    destruct (c =? 116)%N; [|destruct (c =? 102)%N];
      (intros [= <- <- <- <-]; split; [apply ext_app|]; cbn [skipn];
       match goal with |- context [match t with _ => _ end] => pose proof (skipn_short 3 t); pose proof (skipn_short 4 t); cbn [skipn] in * end; lia).
  - intros buf l open close pretty indent tabs nl max depth b r nl' ok Ho. cbn [lpobj].
    destruct (depth =? MAX_DEPTH).
    { intros [= <- <- <- <-]. split; [apply ext_app|]. split; [simpl; lia|].
      intros _ H. destruct l; [congruence | simpl; lia]. }
    assert (Hfull : forall b r nl' ok,
      lploop fuel (buf ++ [open]) (tl l) open close pretty indent tabs nl max depth [] 0 = (b, r, nl', ok) ->
      ext buf b /\ length r <= length l /\ (stops max ok = false -> l <> [] -> length r < length l)).
    { intros b0 r0 nl0 ok0 H. apply IHl with (base := buf) in H.
      - destruct H as [H1 H2]. split; auto. destruct l; simpl in *; split; try lia; intros; congruence || lia.
      - apply ext_app.
      - constructor.
      - intros _. rewrite last_last. auto. }
    destruct (0 <? width)%Z; [|apply Hfull].
    destruct (pretty && (open =? 91)%N && (max =? -1)%Z).
    + destruct (Z.ltb_spec 3 (width - (Z.of_nat (length buf) - nl))) as [Hm|]; [|apply Hfull].
      destruct (lpobj fuel buf l 91 93 false [] 0 0 (width - (Z.of_nat (length buf) - nl)) depth) as [[[b1 l1] nl1] ok1] eqn:E1.
      apply IHo in E1 as (H1 & H2 & H3); auto.
      destruct ok1; cbn [andb]; [|apply Hfull].
      destruct (_ <=? _)%Z; [|apply Hfull]. intros [= <- <- <- <-].
      split; auto. split; auto. intros _. apply H3. unfold stops. rewrite andb_false_r. reflexivity.
    + destruct (negb (max =? -1)%Z && (open =? 123)%N) eqn:Em; [|apply Hfull].
      intros [= <- <- <- <-]. split; [apply ext_refl|]. split; auto.
      unfold stops. apply andb_prop in Em as [-> _]. discriminate.
  - intros buf l open close pretty indent tabs nl max depth ps n b r nl' ok base Hb Hp Hn. cbn [lploop].
    destruct l as [|c t].
    { intros [= <- <- <- <-]. auto. }
    destruct (c <=? 32)%N.
    { intros H. apply IHl with (base := base) in H as [H1 H2]; auto. split; auto. simpl; lia. }
    destruct (c =? close)%N.
    { pose proof (lclose_ext base pretty open indent tabs nl n ps buf Hb Hp) as H.
      destruct (lclose _ _ _ _ _ _ _ _) as [b1 nl1]. intros [= <- <- <- <-].
      split; [|simpl; lia]. eapply ext_trans; [exact H | apply ext_app]. }
    destruct ((open =? 91)%N || (c =? 34)%N).
    + destruct (lstart_item pretty indent tabs nl (lcomma open n buf)) as [b2 nl2] eqn:E2.
      destruct (lkey pretty open t (c :: t) b2) as [b3 l3] eqn:E3.
      destruct (lpany fuel b3 l3 pretty indent (tabs + 1) nl2 max depth) as [[[b4 l4] nl4] ok4] eqn:E4.
      pose proof (start_item_ext _ _ _ _ _ _ _ _ _ Hn E2) as [H2 H2'].
      pose proof (lkey_ext _ _ _ _ _ _ _ E3) as H3.
      pose proof (IHa _ _ _ _ _ _ _ _ _ _ _ _ E4) as (H4 & H5 & _).
      assert (H6 : length l3 <= S (length t)).
      { unfold lkey in E3. destruct (_ =? 123)%N; injection E3 as <- <-; cbn [length]; pose proof (lpstr_short t); lia. }
      assert (Hbb4 : ext buf b4) by eauto using ext_trans.
      assert (Hb4 : ext base b4) by eauto using ext_trans.
      destruct (negb (max =? -1)%Z && negb ok4).
      { intros [= <- <- <- <-]. split; auto. cbn [length]. lia. }
      intros H. apply IHl with (base := base) in H as [H7 H8]; auto.
      * split; auto. cbn [length]. lia.
      * assert (ps_ok (length base) b4 ps) by (eapply ps_ok_ext; [|exact Hp]; apply ext_length; auto).
        destruct pretty; cbn [andb]; auto. destruct ((open =? 123)%N && sort_keys); auto.
        apply Forall_app. split; auto. constructor; [|constructor]. cbn [kp_vs kp_ve fst snd].
        pose proof (ext_length _ _ (ext_trans _ _ _ Hb (start_ext open n buf Hn))).
        pose proof (ext_length _ _ (ext_trans _ _ _ (H2' eq_refl) (ext_trans _ _ _ H3 H4))).
        unfold kp_vs, kp_ve; cbn [fst snd]. lia.
      * lia.
    + intros H. apply IHl with (base := base) in H as [H1 H2]; auto. split; auto. simpl; lia.
Qed.

(* ---------- the model computes these functions ---------- *)

(** The index reached stands at the remainder. *)
Definition simr (json : bytes) (i : nat) (m : R (bytes * nat * Z * bool)) (x : bytes * bytes * Z * bool) : Prop :=
  let '(b, r, nl, ok) := x in
  exists i', m = Ok (b, i', nl, ok) /\ skipn i' json = r /\ i <= i'.

Lemma skipn_suf json i l : skipn i json = l -> l <> [] -> suf l json /\ i = pos json l /\ i < length json.
Proof.
  intros H Hl. destruct (skipn_case json i) as [(c & t & E & Hi)|[E Hi]]; [|congruence].
  assert (Hs : suf l json) by (exists (firstn i json); rewrite <- H; symmetry; apply firstn_skipn).
  split; auto. split; auto. unfold pos. rewrite <- H, skipn_length. lia.
Qed.
Lemma pos_skipn json l : suf l json -> skipn (pos json l) json = l.
Proof. intros [a ->]. unfold pos. rewrite app_length. replace (length a + length l - length l) with (length a) by lia. apply skipn_length_app. Qed.

Lemma skip_to_value_spec json : forall fuel i l, skipn i json = l -> length l < fuel ->
  exists i', skip_to_value fuel json i = Ok i' /\ skipn i' json = dropw starts_value l /\ i <= i'.
Proof.
  induction fuel as [|fuel IH]; intros i l Hl Hf; [lia|]. cbn [skip_to_value].
  destruct l as [|c t].
  - rewrite (ltb_skipn_nil _ _ Hl). exists i. auto.
  - rewrite (ltb_skipn _ _ _ _ Hl), (idx_skipn _ _ _ _ Hl). cbn [bind dropw].
    pose proof (skipn_cons_1 _ _ _ _ Hl) as Ht. cbn [length] in Hf.
    destruct (IH (i + 1) t Ht ltac:(lia)) as (i' & E1 & E2 & E3).
    destruct (N.leb_spec c 32).
    + assert (Es : starts_value c = false) by (unfold starts_value; lia).
      rewrite Es. exists i'. split; [exact E1|]. split; auto. lia.
    + destruct (starts_value c); [exists i; auto|]. exists i'. split; [exact E1|]. split; auto. lia.
Qed.

Lemma idx_last_ok b : b <> [] -> usub (length b) 1 = Ok (length b - 1) /\ idx b (length b - 1) = Ok (last b 0%N).
Proof.
  intros H. destruct (app_last_case b) as [->|(y & z & ->)]; [congruence|].
  rewrite app_length. cbn [length]. split; [apply usub_ok; lia|].
  rewrite last_last. unfold idx. rewrite Nat.add_sub, nth_error_app2, Nat.sub_diag by lia. reflexivity.
Qed.

Lemma set_last_lnl b : b <> [] ->
  (if (last b 0 =? 32)%N then set_byte b (length b - 1) 10 else Ok (b ++ [10%N])) = Ok (lnl b).
Proof.
  intros H. unfold lnl. destruct (_ =? 32)%N eqn:E; auto.
  destruct (app_last_case b) as [->|(y & z & ->)]; [congruence|].
  unfold set_byte. rewrite app_length, removelast_last. cbn [length].
  replace (length y + 1 - 1) with (length y) by lia.
  replace (length y <? length y + 1) with true by (symmetry; apply Nat.ltb_lt; lia).
  rewrite firstn_length_app. f_equal. f_equal. f_equal. apply skipn_all2. rewrite app_length. simpl. lia.
Qed.

(** Members recorded by the model and by the functions here. *)
Definition prel (json : bytes) (m : pair) (p : kpair) : Prop :=
  pr_vstart m = kp_vs p /\ pr_vend m = kp_ve p /\ 1 <= pr_kend m /\
  slice json (pr_kstart m + 1) (pr_kend m - 1) = Ok (kp_key p).
Definition krel (a : bytes * pair) (p : kpair) : Prop :=
  fst a = kp_key p /\ pr_vstart (snd a) = kp_vs p /\ pr_vend (snd a) = kp_ve p.

Lemma pair_keys_spec json mp ps : Forall2 (prel json) mp ps ->
  exists ks, pair_keys json mp = Ok ks /\ Forall2 krel ks ps.
Proof.
  induction 1 as [|m p mp ps (H1 & H2 & H3 & H4) _ (ks & E & F)]; cbn [pair_keys]; [eauto|].
  rewrite usub_ok by lia. cbn [bind]. rewrite H4. cbn [bind]. rewrite E. cbn [bind].
  eexists. split; [reflexivity|]. constructor; auto. split; auto.
Qed.
Lemma insert_krel x p ks ps : krel x p -> Forall2 krel ks ps -> Forall2 krel (insert_pair x ks) (kinsert p ps).
Proof.
  intros Hx H. induction H as [|y q ks ps Hy Ht IH]; cbn [insert_pair kinsert]; auto.
  assert (E : pair_le x y = kle p q).
  { unfold pair_le, kle. destruct Hx as (-> & -> & _), Hy as (-> & -> & _). reflexivity. }
  rewrite E. destruct (kle p q); auto.
Qed.
Lemma isort_krel ks ps : Forall2 krel ks ps -> Forall2 krel (isort_pairs ks) (ksort ps).
Proof. induction 1; cbn [isort_pairs ksort]; auto using insert_krel. Qed.

Lemma kinsert_in (P : kpair -> Prop) x l : P x -> Forall P l -> Forall P (kinsert x l).
Proof. intros Hx H. induction H; cbn [kinsert]; auto. destruct (kle _ _); auto. Qed.
Lemma ksort_in (P : kpair -> Prop) l : Forall P l -> Forall P (ksort l).
Proof. induction 1; cbn [ksort]; auto using kinsert_in. Qed.

Definition vrel (m : pair) (p : kpair) : Prop := pr_vstart m = kp_vs p /\ pr_vend m = kp_ve p.
Lemma join_spec B buf mp ps : Forall2 vrel mp ps -> ps_ok B buf ps -> join_pairs buf mp = Ok (ljoin buf ps).
Proof.
  induction 1 as [|m p mp ps [H1 H2] Ht IH]; intros Hp; cbn [join_pairs ljoin]; auto.
  inversion Hp as [|? ? (H3 & H4 & H5) H6]; subst.
  rewrite H1, H2, slice_ok by lia. cbn [bind]. rewrite IH by auto. cbn [bind]. unfold seg.
  inversion Ht; subst; reflexivity.
Qed.

Definition ps_head (buf : bytes) (ps : list kpair) : Prop :=
  match ps with [] => True | p :: _ => ps_ok (kp_vs p) buf ps end.

Lemma last_in {A} (P : A -> Prop) l d : Forall P l -> P d -> P (last l d).
Proof. induction 1 as [|x l Hx Hl IH]; auto. intros Hd. destruct l; auto. Qed.

Lemma Forall2_krel_vrel ks ps : Forall2 krel ks ps -> Forall2 vrel (map snd ks) ps.
Proof. induction 1 as [|a p ks ps (_ & H1 & H2) _ IH]; simpl; constructor; auto. split; auto. Qed.

Lemma sort_pairs_spec json buf mp ps : Forall2 (prel json) mp ps -> ps_head buf ps ->
  sort_pairs json buf mp = Ok (lsort_pairs buf ps).
Proof.
  intros H Hh. unfold sort_pairs, lsort_pairs. destruct H as [|m p mp ps Hm Ht]; auto.
  cbn [ps_head] in Hh.
  assert (Hsorted : exists sorted,
    (match mp with [] => Ok (m :: mp) | _ => ks <- pair_keys json (m :: mp) ;; Ok (map snd (isort_pairs ks)) end) = Ok sorted
    /\ Forall2 vrel sorted (ksort (p :: ps))).
  { inversion Ht as [|? ? ? ? Hm' Ht']; subst.
    - eexists. split; [reflexivity|]. cbn [ksort kinsert]. constructor; auto. destruct Hm as (? & ? & _). split; auto.
    - destruct (pair_keys_spec json (m :: x :: l) (p :: y :: l')) as (ks & -> & Hks); [auto|].
      cbn [bind]. eexists. split; [reflexivity|]. apply Forall2_krel_vrel, isort_krel, Hks. }
  destruct Hsorted as (sorted & -> & Hv). cbn [bind].
  assert (Hle : pr_vstart m <= pr_vend (last (m :: mp) m)).
  { assert (HF : Forall (fun q => kp_vs p <= pr_vend q) (m :: mp)).
    { assert (HF : Forall2 (prel json) (m :: mp) (p :: ps)) by auto.
      unfold ps_ok in Hh. revert Hh. generalize (kp_vs p). clear - HF. intros B.
      induction HF as [|a q l1 l2 (H1 & H2 & _) HF IH]; intros Hp; constructor; inversion Hp; subst; auto. lia. }
    destruct Hm as (-> & _). apply last_in; auto. inversion HF; auto. }
  rewrite usub_ok by exact Hle. cbn [bind].
  rewrite (join_spec (kp_vs p) buf _ _ Hv) by (apply ksort_in; exact Hh). cbn [bind].
  destruct Hm as (-> & _). reflexivity.
Qed.

Lemma nonempty_ext (base buf : bytes) : ext base buf -> base <> [] -> buf <> [].
Proof. intros [x ->] H E. apply app_eq_nil in E. tauto. Qed.

Lemma lsort_nonempty buf ps : buf <> [] -> ps_head buf ps -> (forall p t, ps = p :: t -> 0 < kp_vs p) -> lsort_pairs buf ps <> [].
Proof.
  intros H Hh Hp. unfold lsort_pairs. destruct ps as [|p t]; auto.
  specialize (Hp _ _ eq_refl). destruct buf; [congruence|]. destruct (kp_vs p); [lia|]. discriminate.
Qed.

Lemma lcomma_model open n (buf : bytes) :
  (if 0 <? n then
     let buf := buf ++ [44%N] in
     if negb (width =? -1)%Z && (open =? 91)%N then buf ++ [32%N] else buf
   else buf) = lcomma open n buf.
Proof. unfold lcomma. destruct (0 <? n); auto. destruct (_ && _); auto. cbv zeta. rewrite <- app_assoc. reflexivity. Qed.

Lemma lpstr_pos json t : suf (34%N :: t) json ->
  skipn (pos json (snd (lpstr t))) json = snd (lpstr t) /\ pos json (34%N :: t) < pos json (snd (lpstr t)).
Proof.
  intros H.
  assert (Hs : suf (snd (lpstr t)) json).
  { eapply suf_trans; [|eapply suf_tail; exact H]. unfold lpstr.
    destruct (split_str t) as [(b, r)|] eqn:E; cbn [snd].
    - apply split_str_app in E. subst t. exists (b ++ [34%N]). rewrite <- app_assoc. reflexivity.
    - exists t. rewrite app_nil_r. reflexivity. }
  split; [apply pos_skipn; auto|]. pose proof (lpstr_short t). apply suf_length in H. cbn [length] in H. unfold pos.
  cbn [length]. lia.
Qed.

(** The recorded name of a closed key. *)
Lemma key_slice json t : suf (34%N :: t) json -> snd (lpstr t) <> [] ->
  1 <= pos json (snd (lpstr t)) /\
  slice json (pos json (34%N :: t) + 1) (pos json (snd (lpstr t)) - 1) = Ok (lname t).
Proof.
  intros H. pose proof (lpstr_pos json t H) as [_ Hlt]. split; [lia|].
  unfold lpstr, lname in *. destruct (split_str t) as [(b, r)|] eqn:E; cbn [snd] in *; [|congruence].
  apply split_str_app in E. rewrite E in *. rewrite (pos_S _ _ _ H).
  assert (Hr : suf (34%N :: r) json) by (eapply suf_trans; [|eapply suf_tail; exact H]; apply suf_app).
  pose proof (pos_S _ _ _ Hr). replace (pos json r - 1) with (pos json (34%N :: r)) by lia.
  apply slice_pos. eapply suf_tail; exact H.
Qed.

Lemma lp_sim json fuel :
  (forall buf i l pretty indent tabs nl max depth,
    skipn i json = l -> 4 * length l <= fuel -> 1 <= fuel ->
    simr json i (extend_pretty_any fuel buf json i pretty width prefix indent sort_keys tabs nl max depth)
      (lpany fuel buf l pretty indent tabs nl max depth)) /\
  (forall buf i l open close (pretty : bool) indent tabs nl max depth,
    (open =? 32)%N = false -> l <> [] ->
    skipn i json = l -> 4 * length l <= fuel + (if pretty then 1 else 2) ->
    simr json i (extend_pretty_object fuel buf json i open close pretty width prefix indent sort_keys tabs nl max depth)
      (lpobj fuel buf l open close pretty indent tabs nl max depth)) /\
  (forall buf i l open close pretty indent tabs nl max depth mp ps n,
    buf <> [] -> (n = 0 -> (last buf 0 =? 32)%N = false) -> 1 <= i ->
    (l <> [] -> Forall2 (prel json) mp ps) -> ps_head buf ps -> Forall (fun p => 0 < kp_vs p) ps ->
    skipn i json = l -> 4 * length l + 1 <= fuel ->
    simr json i (extend_pretty_loop fuel buf json i open close pretty width prefix indent sort_keys tabs nl max depth mp n)
      (lploop fuel buf l open close pretty indent tabs nl max depth ps n)).
Proof.
  induction fuel as [|fuel (IHa & IHo & IHl)].
  { split; [intros; lia|]. split; [|intros; lia].
    intros. destruct l; [congruence|]. cbn [length] in *. destruct pretty; lia. }
  split; [|split].
  - intros buf i l pretty indent tabs nl max depth Hl Hf _. cbn [extend_pretty_any lpany].
    assert (Hlen : length l < S (length json)) by (rewrite <- Hl, skipn_length; lia).
    destruct (skip_to_value_spec json _ i l Hl Hlen) as (i' & -> & Hi' & Hii). cbn [bind].
    pose proof (suf_length _ _ (suf_dropw starts_value l)) as Hd.
    destruct (dropw starts_value l) as [|c t] eqn:Ed.
    { rewrite (ltb_skipn_nil _ _ Hi'). exists i'. auto. }
    rewrite (ltb_skipn _ _ _ _ Hi'), (idx_skipn _ _ _ _ Hi'). cbn [negb bind].
    pose proof (skipn_suf _ _ _ Hi' ltac:(congruence)) as (Hs & Ep & Hlt).
    destruct (N.eqb_spec c 34) as [->|].
    { rewrite Ep at 1. rewrite extend_pretty_string_spec by auto.
      destruct (lpstr_pos json t Hs) as [H1 H2]. eexists. split; [reflexivity|]. split; auto. lia. }
    destruct (_ || _).
    { rewrite Ep at 1. rewrite extend_pretty_number_spec by auto.
      pose proof (suf_dropw pnum_stop t) as Hdp. pose proof (suf_trans _ _ _ Hdp (suf_tail _ _ _ Hs)) as Hdp'.
      eexists. split; [reflexivity|]. split; [apply pos_skipn; auto|].
      apply suf_length in Hdp, Hs. unfold pos in *. cbn [length] in *. lia. }
    assert (Hobj : forall o cl, (o =? 32)%N = false ->
      simr json i (extend_pretty_object fuel buf json i' o cl pretty width prefix indent sort_keys tabs nl max (depth + 1))
        (lpobj fuel buf (c :: t) o cl pretty indent tabs nl max (depth + 1))).
    { intros o cl Ho. pose proof (IHo buf i' (c :: t) o cl pretty indent tabs nl max (depth + 1) Ho ltac:(congruence) Hi') as H.
      specialize (H ltac:(destruct pretty; lia)). unfold simr in *.
      destruct (lpobj _ _ _ _ _ _ _ _ _ _ _) as [[[b r] nl'] ok]. destruct H as (i2 & H1 & H2 & H3).
      exists i2. split; auto. split; auto. lia. }
    destruct (c =? 123)%N; [apply Hobj; reflexivity|].
    destruct (c =? 91)%N; [apply Hobj; reflexivity|].
    destruct (c =? 116)%N; [|destruct (c =? 102)%N];
      (eexists; split; [reflexivity|]; split; [|lia]; rewrite <- Hi', skipn_skipn; f_equal; lia).
  - intros buf i l open close pretty indent tabs nl max depth Ho Hne Hl Hf.
    pose proof (skipn_suf _ _ _ Hl Hne) as (Hs & Ep & Hlt).
    cbn [extend_pretty_object lpobj].
    destruct (depth =? MAX_DEPTH).
    { rewrite slice_from_ok by lia. cbn [bind]. rewrite Hl, ugly_spec. cbn [bind].
      eexists. split; [reflexivity|]. split; [apply skipn_all | lia]. }
    assert (Htl : skipn (i + 1) json = tl l).
    { destruct l; [congruence|]. eapply skipn_cons_1; eauto. }
    assert (Hm : S (length (tl l)) = length l) by (destruct l; [congruence | reflexivity]).
    assert (Hfull : simr json i (extend_pretty_loop fuel (buf ++ [open]) json (i + 1) open close pretty width prefix indent sort_keys tabs nl max depth [] 0)
       (lploop fuel (buf ++ [open]) (tl l) open close pretty indent tabs nl max depth [] 0)).
    { assert (H : simr json (i + 1) (extend_pretty_loop fuel (buf ++ [open]) json (i + 1) open close pretty width prefix indent sort_keys tabs nl max depth [] 0)
       (lploop fuel (buf ++ [open]) (tl l) open close pretty indent tabs nl max depth [] 0)).
      { apply IHl; auto; try lia.
        - intros E. apply app_eq_nil in E as [_ E]. discriminate.
        - intros _. rewrite last_last. auto.
        - exact I.
        - destruct pretty; lia. }
      unfold simr in *. destruct (lploop _ _ _ _ _ _ _ _ _ _ _ _ _) as [[[b r] nl'] ok].
      destruct H as (i2 & H1 & H2 & H3). exists i2. split; auto. split; auto. lia. }
    destruct (0 <? width)%Z; [|exact Hfull].
    destruct (pretty && (open =? 91)%N && (max =? -1)%Z) eqn:Eat.
    + destruct (3 <? width - (Z.of_nat (length buf) - nl))%Z; [|exact Hfull].
      assert (Hp : pretty = true) by (destruct pretty; auto; discriminate). subst pretty.
      set (max1 := (width - (Z.of_nat (length buf) - nl))%Z).
      pose proof (IHo buf i l 91%N 93%N false [] 0%Z 0%Z max1 depth eq_refl Hne Hl ltac:(cbn iota in Hf |- *; lia)) as H.
      pose proof (proj1 (proj2 (lp_progress fuel)) buf l 91%N 93%N false [] 0%Z 0%Z max1 depth) as Hpr.
      unfold simr in H at 1.
      destruct (lpobj fuel buf l 91 93 false [] 0 0 max1 depth) as [[[b1 l1] nl1] ok1].
      specialize (Hpr _ _ _ _ eq_refl eq_refl) as (He & _ & _).
      destruct H as (i1 & -> & Hi1 & Hii1). cbn [bind].
      destruct (ok1 && _).
      * exists i1. auto.
      * rewrite (ext_firstn _ _ He). exact Hfull.
    + destruct (negb (max =? -1)%Z && (open =? 123)%N); [|exact Hfull].
      exists i. auto.
  - intros buf i l open close pretty indent tabs nl max depth mp ps n Hb Hn Hi Hps Hhd Hpos Hl Hf.
    cbn [extend_pretty_loop lploop].
    destruct l as [|c t].
    { rewrite (ltb_skipn_nil _ _ Hl). exists i. auto. }
    rewrite (ltb_skipn _ _ _ _ Hl), (idx_skipn _ _ _ _ Hl). cbn [negb bind].
    pose proof (skipn_suf _ _ _ Hl ltac:(congruence)) as (Hs & Ep & Hlt).
    pose proof (skipn_cons_1 _ _ _ _ Hl) as Ht. cbn [length] in Hf.
    specialize (Hps ltac:(congruence)).
    assert (Hskip : simr json i (extend_pretty_loop fuel buf json (i + 1) open close pretty width prefix indent sort_keys tabs nl max depth mp n)
      (lploop fuel buf t open close pretty indent tabs nl max depth ps n)).
    { pose proof (IHl buf (i + 1) t open close pretty indent tabs nl max depth mp ps n Hb Hn ltac:(lia) (fun _ => Hps) Hhd Hpos Ht ltac:(lia)) as H.
      unfold simr in *. destruct (lploop _ _ _ _ _ _ _ _ _ _ _ _ _) as [[[b r] nl'] ok].
      destruct H as (i2 & H1 & H2 & H3). exists i2. split; auto. split; auto. lia. }
    destruct (c <=? 32)%N; [exact Hskip|].
    destruct (c =? close)%N.
    { assert (Hcl : (if pretty then
             buf <- (if (open =? 123)%N && sort_keys then sort_pairs json buf mp else Ok buf) ;;
             '(buf, nl) <-
               (if 0 <? n then
                  let nl := Z.of_nat (length buf) in
                  l <- usub (length buf) 1 ;;
                  z <- idx buf l ;;
                  if negb (z =? 32)%N then Ok (buf ++ [10%N], nl) else Ok (buf, nl)
                else Ok (buf, nl)) ;;
             l <- usub (length buf) 1 ;;
             z <- idx buf l ;;
             if negb (z =? open)%N then Ok (extend_tabs buf prefix indent tabs, nl)
             else Ok (buf, nl)
           else Ok (buf, nl)) = Ok (lclose pretty open indent tabs nl n ps buf)).
      { unfold lclose. destruct pretty; auto.
        assert (H1 : (if (open =? 123)%N && sort_keys then sort_pairs json buf mp else Ok buf) =
                     Ok (if (open =? 123)%N && sort_keys then lsort_pairs buf ps else buf)).
        { destruct (_ && _); auto. apply sort_pairs_spec; auto. }
        rewrite H1. cbn [bind].
        assert (Hb1 : (if (open =? 123)%N && sort_keys then lsort_pairs buf ps else buf) <> []).
        { destruct (_ && _); auto. apply lsort_nonempty; auto.
          intros p t' ->. inversion Hpos; auto. }
        set (b1 := if (open =? 123)%N && sort_keys then lsort_pairs buf ps else buf) in *. clearbody b1.
        destruct (idx_last_ok b1 Hb1) as [U1 I1].
        destruct (0 <? n).
        - cbv zeta. rewrite U1. cbn [bind]. rewrite I1. cbn [bind].
          destruct (last b1 0 =? 32)%N; cbn [negb bind].
          + rewrite U1. cbn [bind]. rewrite I1. cbn [bind]. destruct (_ =? open)%N; reflexivity.
          + destruct (idx_last_ok (b1 ++ [10%N])) as [U2 I2]; [intros E; apply app_eq_nil in E as [_ E]; discriminate|].
            rewrite U2. cbn [bind]. rewrite I2. cbn [bind]. destruct (_ =? open)%N; reflexivity.
        - cbn [bind]. rewrite U1. cbn [bind]. rewrite I1. cbn [bind]. destruct (_ =? open)%N; reflexivity. }
      cbv zeta in Hcl. rewrite Hcl. cbn [bind]. destruct (lclose _ _ _ _ _ _ _ _) as [b1 nl1].
      exists (i + 1). split; auto. split; auto. lia. }
    destruct ((open =? 91)%N || (c =? 34)%N) eqn:Eitem; [|exact Hskip].
    pose proof (lcomma_model open n buf) as Elc. cbv zeta in Elc. rewrite Elc. clear Elc.
    set (b1 := lcomma open n buf).
    assert (Hb1 : b1 <> []) by (eapply nonempty_ext; [apply lcomma_ext | auto]).
    destruct (idx_last_ok b1 Hb1) as [U1 I1].
    assert (Hst : exists ks vs : nat,
       (if pretty then
             let nl := Z.of_nat (length b1) in
             l <- usub (length b1) 1 ;;
             z <- idx b1 l ;;
             buf <- (if (z =? 32)%N then set_byte b1 l 10%N else Ok (b1 ++ [10%N])) ;;
             let '(ks, vs) := if (open =? 123)%N && sort_keys then (i, length buf)
                              else (0, 0) in
             Ok (extend_tabs buf prefix indent (tabs + 1), nl, ks, vs)
           else Ok (b1, nl, 0, 0)) =
       Ok (lstart_item pretty indent tabs nl b1, ks, vs) /\
       (pretty && (open =? 123)%N && sort_keys = true -> ks = i /\ vs = length (lnl b1))).
    { unfold lstart_item. destruct pretty; [|exists 0, 0; split; [reflexivity|discriminate]].
      cbv zeta. rewrite U1. cbn [bind]. rewrite I1. cbn [bind]. rewrite set_last_lnl by auto. cbn [bind andb].
      destruct (_ && sort_keys); eexists _, _; (split; [reflexivity|]); auto. discriminate. }
    cbv zeta in Hst. destruct Hst as (ks & vs & -> & Hksvs).
    destruct (lstart_item pretty indent tabs nl b1) as [b2 nl2] eqn:E2. cbn [bind].
    assert (Hstart := start_item_ext _ _ _ _ _ _ _ _ _ Hn E2).
    assert (Hkey : exists i3 ke : nat, (if (open =? 123)%N then
             '(buf, i, nl, _) <- extend_pretty_string b2 json i nl2 ;;
             let kend := if sort_keys then i else 0 in
             let buf := buf ++ [58%N] in
             let buf := if pretty then buf ++ [32%N] else buf in
             Ok (buf, i, nl, kend)
           else Ok (b2, i, nl2, 0)) = Ok (fst (lkey pretty open t (c :: t) b2), i3, nl2, ke) /\
       skipn i3 json = snd (lkey pretty open t (c :: t) b2) /\ i <= i3 /\
       length (snd (lkey pretty open t (c :: t) b2)) <= S (length t) /\
       ((open =? 123)%N = true -> length (snd (lkey pretty open t (c :: t) b2)) < S (length t)) /\
       (pretty && (open =? 123)%N && sort_keys = true ->
          i <= ke /\ (snd (lkey pretty open t (c :: t) b2) <> [] -> 1 <= ke /\ slice json (i + 1) (ke - 1) = Ok (lname t)))).
    { unfold lkey. destruct (open =? 123)%N eqn:Eo.
      - assert (Hc : c = 34%N).
        { apply N.eqb_eq in Eo. subst open. cbn [orb] in Eitem. change (123 =? 91)%N with false in Eitem. cbn [orb] in Eitem. lia. }
        subst c.
        assert (Hes : extend_pretty_string b2 json i nl2 = Ok (b2 ++ fst (lpstr t), pos json (snd (lpstr t)), nl2, true)).
        { rewrite Ep. apply extend_pretty_string_spec; auto. }
        rewrite Hes. cbn [bind fst snd].
        destruct (lpstr_pos json t Hs) as [K1 K2]. pose proof (lpstr_short t) as K3.
        eexists _, _. split; [|split; [exact K1|]].
        { f_equal. f_equal. f_equal. f_equal. destruct pretty; rewrite <- !app_assoc; reflexivity. }
        split; [lia|]. split; [lia|]. split; [lia|]. intros Hsk.
        apply andb_prop in Hsk as [_ ->]. split; [lia|]. intros Hr.
        destruct (key_slice json t Hs Hr) as [K4 K5]. split; [lia|]. rewrite Ep. exact K5.
      - cbn [fst snd]. exists i, 0. split; auto. split; auto. split; [lia|]. split; [cbn [length]; lia|].
        split; [discriminate|]. rewrite andb_false_r. discriminate. }
    cbv zeta in Hkey. destruct Hkey as (i3 & ke & -> & Hi3 & Hii3 & Hlen3 & Hlen3' & Hke). cbn [bind].
    assert (Hkx := lkey_ext pretty open t (c :: t) b2).
    assert (Hl3 : open = 123%N \/ snd (lkey pretty open t (c :: t) b2) = c :: t).
    { unfold lkey. destruct (N.eqb_spec open 123); auto. }
    destruct (lkey pretty open t (c :: t) b2) as [b3 l3]. cbn [fst snd] in *. specialize (Hkx _ _ eq_refl).
    pose proof (IHa b3 i3 l3 pretty indent (tabs + 1)%Z nl2 max depth Hi3 ltac:(lia) ltac:(lia)) as Hany.
    pose proof (proj1 (lp_progress fuel) b3 l3 pretty indent (tabs + 1)%Z nl2 max depth) as Hpr.
    unfold simr in Hany at 1.
    destruct (lpany fuel b3 l3 pretty indent (tabs + 1) nl2 max depth) as [[[b4 l4] nl4] ok4].
    specialize (Hpr _ _ _ _ eq_refl) as (He4 & Hl4 & Hl4').
    destruct Hany as (i4 & -> & Hi4 & Hii4). cbn [bind].
    fold (stops max ok4). destruct (stops max ok4) eqn:Estop.
    { exists i4. split; auto. split; auto. lia. }
    specialize (Hl4' eq_refl).
    assert (Hlt4 : length l4 < S (length t)).
    { destruct Hl3 as [->|Hl3]; [specialize (Hlen3' eq_refl); lia|].
      subst l3. specialize (Hl4' ltac:(congruence)). cbn [length] in Hl4'. lia. }
    rewrite usub_ok by lia. cbn [bind]. replace (i4 - 1 + 1) with i4 by lia.
    destruct Hstart as [Hst1 Hst2].
    assert (Hbb4 : ext buf b4) by eauto using ext_trans.
    pose proof (ext_length _ _ Hbb4) as Hlb4.
    assert (Hhd4 : ps_head b4 ps).
    { destruct ps; auto. cbn [ps_head] in *. eapply ps_ok_ext; [exact Hlb4 | exact Hhd]. }
    assert (Hgo : forall mp' ps', (l4 <> [] -> Forall2 (prel json) mp' ps') -> ps_head b4 ps' -> Forall (fun p => 0 < kp_vs p) ps' ->
      simr json i (extend_pretty_loop fuel b4 json i4 open close pretty width prefix indent sort_keys tabs nl4 max depth mp' (n + 1))
        (lploop fuel b4 l4 open close pretty indent tabs nl4 max depth ps' (n + 1))).
    { clear Hskip. intros mp' ps' P1 P2 P3.
      pose proof (IHl b4 i4 l4 open close pretty indent tabs nl4 max depth mp' ps' (n + 1)
        (nonempty_ext _ _ Hbb4 Hb) ltac:(lia) ltac:(lia) P1 P2 P3 Hi4 ltac:(lia)) as H.
      unfold simr in H |- *. destruct (lploop _ _ _ _ _ _ _ _ _ _ _ _ _) as [[[b r] nl'] ok].
      destruct H as (i2 & H1 & H2 & H3). exists i2. split; auto. split; auto. lia. }
    destruct (pretty && (open =? 123)%N && sort_keys) eqn:Esk; [|apply Hgo; auto].
    destruct (Hksvs eq_refl) as [-> ->]. destruct (Hke eq_refl) as [Hke1 Hke2].
    assert (Hp : pretty = true) by (destruct pretty; auto; discriminate). subst pretty.
    specialize (Hst2 eq_refl).
    assert (Hvle : length (lnl b1) <= length b4).
    { apply ext_length. eauto using ext_trans. }
    pose proof (ext_length _ _ (start_ext open n buf Hn)) as Hvb. fold b1 in Hvb.
    pose proof (lnl_length b1 Hb1) as [_ Hvpos].
    replace ((i <=? ke) && (length (lnl b1) <=? length b4)) with true.
    2:{ symmetry. apply andb_true_intro. split; apply Nat.leb_le; lia. }
    apply Hgo.
    + intros Hne. apply Forall2_app; auto. constructor; auto.
      assert (l3 <> []) by (intros ->; simpl in Hl4; destruct l4; [congruence | simpl in Hl4; lia]).
      destruct (Hke2 H). repeat split; auto.
    + destruct ps as [|p0 ps']; cbn [app ps_head] in *.
      * constructor; [|constructor]. unfold kp_vs, kp_ve; cbn [fst snd]. lia.
      * inversion Hhd as [|? ? (Q1 & Q2 & Q3) _]; subst.
        change (ps_ok (kp_vs p0) b4 ((p0 :: ps') ++ [(lname t, length (lnl b1), length b4)])).
        apply Forall_app. split; [exact Hhd4|]. constructor; [|constructor]. unfold kp_vs, kp_ve in *; cbn [fst snd] in *. lia.
    + apply Forall_app. split; auto.
Qed.
End pretty.

Definition lpretty (json : bytes) (o : popts) : bytes :=
  let '(buf, _, _, _) := lpany (o_width o) (o_prefix o) (o_sort o) (8 + 4 * length json)
    (o_prefix o) json true (o_indent o) 0 0 (-1) 0 in
  match buf with [] => [] | _ => buf ++ [10%N] end.

Lemma pretty_options_spec json o : pretty_options json o = Ok (lpretty json o).
Proof.
  unfold pretty_options, lpretty.
  pose proof (proj1 (lp_sim (o_width o) (o_prefix o) (o_sort o) json (8 + 4 * length json))
    (o_prefix o) 0 json true (o_indent o) 0%Z 0%Z (-1)%Z 0 eq_refl ltac:(lia) ltac:(lia)) as H.
  unfold simr in H. destruct (lpany _ _ _ _ _ _ _ _ _ _ _ _) as [[[b r] nl'] ok].
  destruct H as (i & -> & _). reflexivity.
Qed.
