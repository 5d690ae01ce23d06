(** A checker for well-formed trees, sound for [wf]; used to show that concrete
    documents meet the hypotheses of the theorems. *)
From Verif Require Import P_Base S_Json.

Definition wsb (w : text) : bool := forallb (fun c => (c =? 32) || (c =? 9) || (c =? 10) || (c =? 13))%N w.
Lemma wsb_ws w : wsb w = true -> ws w.
Proof.
  unfold wsb, ws. intros H. apply Forall_forall. intros c Hc. rewrite forallb_forall in H. specialize (H c Hc).
  unfold ws_byte. lia.
Qed.

Definition digitb (c : N) : bool := ((48 <=? c) && (c <=? 57))%N.
Definition digits1b (l : text) : bool := match l with [] => false | _ => forallb digitb l end.
Lemma digitsb_digits l : forallb digitb l = true -> Forall digit l.
Proof.
  intros H. apply Forall_forall. intros c Hc. rewrite forallb_forall in H. specialize (H c Hc).
  unfold digitb in H. unfold digit. lia.
Qed.
Lemma digits1b_digits1 l : digits1b l = true -> digits1 l.
Proof. destruct l; [discriminate|]. intros H. split; [discriminate|]. apply digitsb_digits, H. Qed.

(** Longest prefix of digits. *)
Fixpoint spand (l : text) : text * text :=
  match l with
  | c :: t => if digitb c then let '(a, b) := spand t in (c :: a, b) else ([], l)
  | [] => ([], [])
  end.
Lemma spand_spec l : forall a b, spand l = (a, b) -> l = a ++ b /\ forallb digitb a = true.
Proof.
  induction l as [|c t IH]; intros a b H; cbn [spand] in H.
  - injection H as <- <-. auto.
  - destruct (digitb c) eqn:E.
    + destruct (spand t) as [a' b'] eqn:Es. injection H as <- <-. destruct (IH _ _ eq_refl) as [-> Ha].
      split; auto. cbn [forallb]. rewrite E. auto.
    + injection H as <- <-. auto.
Qed.

Definition int_partb (i : text) : bool :=
  match i with
  | [] => false
  | c :: t => if (c =? 48)%N then match t with [] => true | _ => false end else ((49 <=? c) && (c <=? 57))%N && forallb digitb t
  end.
Definition expb (e : text) : bool :=
  match e with
  | [] => true
  | c :: t => ((c =? 101) || (c =? 69))%N &&
      match t with
      | s :: t' => if ((s =? 43) || (s =? 45))%N then digits1b t' else digits1b t
      | [] => false
      end
  end.
Definition numberb (n : text) : bool :=
  let n := match n with c :: t => if (c =? 45)%N then t else n | [] => [] end in
  let '(i, r) := spand n in
  int_partb i &&
  match r with
  | c :: t => if (c =? 46)%N then let '(f, e) := spand t in digits1b f && expb e else expb r
  | [] => true
  end.

Lemma int_partb_ok i : int_partb i = true -> int_part i.
Proof.
  destruct i as [|c t]; [discriminate|]. cbn [int_partb].
  destruct (N.eqb_spec c 48) as [->|Hn].
  - destruct t; [constructor | discriminate].
  - intros H. apply andb_true_iff in H as [H1 H2]. constructor; [lia | apply digitsb_digits; auto].
Qed.
Lemma expb_ok e : expb e = true -> exp_part e.
Proof.
  destruct e as [|c t]; [constructor|]. cbn [expb]. intros H. apply andb_true_iff in H as [H1 H2].
  assert (Hc : c = 101%N \/ c = 69%N) by lia.
  destruct t as [|s t']; [discriminate|].
  destruct ((s =? 43) || (s =? 45))%N eqn:E.
  - apply (exp_some c [s] t'); auto; [|apply digits1b_digits1; auto].
    assert (s = 43%N \/ s = 45%N) as [-> | ->] by lia; auto.
  - apply (exp_some c [] (s :: t')); auto. apply digits1b_digits1; auto.
Qed.
Lemma numberb_ok n : numberb n = true -> number n.
Proof.
  unfold numberb. intros H.
  assert (exists m u, n = m ++ u /\ (m = [] \/ m = [45%N]) /\
    (let '(i, r) := spand u in int_partb i && match r with
      | c :: t => if (c =? 46)%N then let '(f, e) := spand t in digits1b f && expb e else expb r
      | [] => true end) = true) as (m & u & -> & Hm & Hu).
  { destruct n as [|c t]; [discriminate|]. destruct (N.eqb_spec c 45) as [->|].
    - exists [45%N], t. auto.
    - exists [], (c :: t). auto. }
  clear H. destruct (spand u) as [i r] eqn:E. apply spand_spec in E as [-> _].
  apply andb_true_iff in Hu as [Hi Hr]. apply int_partb_ok in Hi.
  assert (exists f e, r = f ++ e /\ frac_part f /\ exp_part e) as (f & e & -> & Hf & He).
  { destruct r as [|c t].
    - exists [], []. repeat split; constructor.
    - destruct (N.eqb_spec c 46) as [->|].
      + destruct (spand t) as [f e] eqn:E. apply spand_spec in E as [-> _]. apply andb_true_iff in Hr as [Hf He].
        exists (46%N :: f), e. split; [reflexivity|]. split; [constructor; apply digits1b_digits1; auto | apply expb_ok; auto].
      + exists [], (c :: t). split; [reflexivity|]. split; [constructor | apply expb_ok; auto]. }
  constructor; auto.
Qed.

Definition hexb (c : N) : bool := ((48 <=? c) && (c <=? 57) || (97 <=? c) && (c <=? 102) || (65 <=? c) && (c <=? 70))%N.
Fixpoint charsb (b : text) : bool :=
  match b with
  | [] => true
  | c :: t =>
      if (c =? 92)%N then
        match t with
        | e :: t' =>
            if (e =? 117)%N then
              match t' with
              | h1 :: h2 :: h3 :: h4 :: t'' => hexb h1 && hexb h2 && hexb h3 && hexb h4 && charsb t''
              | _ => false
              end
            else existsb (N.eqb e) [34; 92; 47; 98; 102; 110; 114; 116]%N && charsb t'
        | [] => false
        end
      else (32 <=? c)%N && negb (c =? 34)%N && charsb t
  end.
Lemma charsb_ok : forall n b, length b < n -> charsb b = true -> chars b.
Proof.
  induction n as [|n IH]; intros b Hl H; [lia|]. destruct b as [|c t]; [constructor|].
  cbn [charsb length] in *. destruct (N.eqb_spec c 92) as [->|Hn].
  - destruct t as [|e t']; [discriminate|]. cbn [length] in Hl. destruct (N.eqb_spec e 117) as [->|].
    + destruct t' as [|h1 [|h2 [|h3 [|h4 t'']]]]; try discriminate. cbn [length] in Hl.
      repeat (apply andb_true_iff in H as [H ?]).
      assert (forall h, hexb h = true -> hex h) by (intros h; unfold hexb, hex; lia).
      apply chars_uni; auto. apply IH; auto; lia.
    + apply andb_true_iff in H as [He H]. apply chars_short; [|apply IH; auto; lia].
      apply existsb_exists in He as (x & Hx & E). apply N.eqb_eq in E. subst x. exact Hx.
  - repeat (apply andb_true_iff in H as [H ?]). apply chars_plain; [|apply IH; auto; lia].
    unfold plain. repeat split; auto; [lia | intros ->; discriminate].
Qed.

Fixpoint wfb (c : cst) : bool :=
  match c with
  | CNum n => numberb n
  | CStr b => charsb b
  | CArr w es => wsb w && forallb (fun e => match e with Item a v b => wsb a && wfb v && wsb b end) es
  | CObj w ms => wsb w && forallb (fun m => match m with Memb a k b c v d =>
      wsb a && charsb k && wsb b && wsb c && wfb v && wsb d end) ms
  | _ => true
  end.
Lemma wfb_wf : forall c, wfb c = true -> wf c.
Proof.
  fix IH 1. intros c H. destruct c as [ | | |n|b|w es|w ms]; cbn [wfb] in H.
  - constructor.
  - constructor.
  - constructor.
  - constructor. apply numberb_ok, H.
  - constructor. apply (charsb_ok (S (length b))); [lia | exact H].
  - apply andb_true_iff in H as [H1 H2]. constructor; [apply wsb_ws, H1|]. clear H1.
    induction es as [|[a v d] es IHes]; [constructor|]. cbn [forallb] in H2.
    apply andb_true_iff in H2 as [H1 H2]. apply andb_true_iff in H1 as [H1 H4]. apply andb_true_iff in H1 as [H1 H3].
    constructor; [|apply IHes, H2]. constructor; [apply wsb_ws, H1 | apply IH, H3 | apply wsb_ws, H4].
  - apply andb_true_iff in H as [H1 H2]. constructor; [apply wsb_ws, H1|]. clear H1.
    induction ms as [|[a k b e v d] ms IHms]; [constructor|]. cbn [forallb] in H2.
    apply andb_true_iff in H2 as [H1 H2]. repeat (apply andb_true_iff in H1 as [H1 ?]).
    constructor; [|apply IHms, H2].
    constructor; [apply wsb_ws, H1 | apply (charsb_ok (S (length k))); [lia|assumption] | apply wsb_ws; assumption | apply wsb_ws; assumption | apply IH; assumption | apply wsb_ws; assumption].
Qed.
