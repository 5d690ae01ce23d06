(** Specification: where a path of names and indexes leads in a text that need not be
    JSON.  Nothing here mentions the model, apart from the kinds of values. *)
From Coq Require Import List NArith.
From Verif Require Import M_Value S_Json S_Path S_Str S_Decode S_Follow S_Rough.
Import ListNotations.

(** The name written between two quotes: as it stands when no backslash occurs in it,
    decoded otherwise. *)
Definition name_of (b n : text) : Prop :=
  (In 0x5C%N b /\ decodes b n) \/ (~ In 0x5C%N b /\ n = b).
(** The component [k] asks for the name written [b]. *)
Definition wants (k b : text) : Prop := exists n, name_of b n /\ glob byte_char (bare_qm k) n.

(** What stands between a name and its value: blanks and colons. *)
Definition gap_byte (c : N) : Prop := (c <= 0x20)%N \/ c = 0x3A%N.
(** [member n s b m v]: the text [s], which begins at [n], begins with the name [b],
    the value of which begins at [m], where the text goes on with [v]. *)
Inductive member (n : nat) : text -> text -> nat -> text -> Prop :=
| member_at : forall b g v, quotable b -> Forall gap_byte g -> (forall c r, v = c :: r -> ~ gap_byte c) ->
    member n (quoted b ++ g ++ v) b (n + length (quoted b ++ g)) v.
(** An object or array begins here, closed or not. *)
Definition opens (v : text) : Prop := exists c r, v = c :: r /\ (c = 0x7B%N \/ c = 0x5B%N).
Definition no_piece (v : text) : Prop := forall t k r, token t k r -> v <> t ++ r.

Definition piece := (nat * text * kind)%type.

(** [into n s ks o]: inside the object or array that opens at [n], where the text goes on
    with [s], the components [ks] lead to [o]: nowhere, or to a piece of the text behind
    which some of the components are left. *)
Inductive into : nat -> text -> list text -> option (piece * list text) -> Prop :=
| in_object : forall n r ks o, among (S n) r ks o -> into n (0x7B%N :: r) ks o
| in_array : forall n r k i ks ps, index_key k i -> pieces (S n) r ps ->
    into n (0x5B%N :: r) (k :: ks) (option_map (fun p => (p, ks)) (nth_error ps i))
| in_array_name : forall n r k ks, (forall i, ~ index_key k i) -> into n (0x5B%N :: r) (k :: ks) None
(** [among n s ks o]: the same behind the opening brace. *)
with among : nat -> text -> list text -> option (piece * list text) -> Prop :=
| am_end : forall n ks, among n [] ks None
| am_close : forall n r ks, among n (0x7D%N :: r) ks None
| am_skip : forall n c r ks o, c <> 0x22%N -> c <> 0x7D%N -> among (S n) r ks o -> among n (c :: r) ks o
| am_open_name : forall n r ks, (forall b r', quotable b -> 0x22%N :: r <> quoted b ++ r') ->
    among n (0x22%N :: r) ks None
(* a name not asked for: its value is passed over *)
| am_other : forall n s b m t kd r k ks o, member n s b m (t ++ r) -> ~ wants k b -> token t kd r ->
    among (m + length t) r (k :: ks) o -> among n s (k :: ks) o
(* the name asked for, and its value is what is looked for or not to be entered *)
| am_found : forall n s b m t kd r k ks, member n s b m (t ++ r) -> wants k b -> token t kd r ->
    ks = [] \/ ~ opens t -> among n s (k :: ks) (Some ((m, t, kd), ks))
(* the name asked for, and its value is entered *)
| am_enter : forall n s b m v k ks x, member n s b m v -> wants k b -> ks <> [] -> opens v ->
    into m v ks (Some x) -> among n s (k :: ks) (Some x)
(* ... in vain: the search goes on inside that value *)
| am_back : forall n s b m v k ks o, member n s b m v -> wants k b -> ks <> [] -> opens v ->
    into m v ks None -> among m v (k :: ks) o -> among n s (k :: ks) o
(* no value follows *)
| am_no_value : forall n s b m v k ks, member n s b m v -> ~ (wants k b /\ ks <> [] /\ opens v) -> no_piece v ->
    among n s (k :: ks) None.

(** [look n s ks o]: in the text [s], which begins at [n], the components lead to [o]. *)
Inductive look : nat -> text -> list text -> option piece -> Prop :=
| lk_found : forall n w s ks p, Forall (fun c => (c <= 0x20)%N) w -> into (n + length w) s ks (Some (p, [])) ->
    look n (w ++ s) ks (Some p)
| lk_on : forall n w s ks m t kd k' ks' o, Forall (fun c => (c <= 0x20)%N) w ->
    into (n + length w) s ks (Some ((m, t, kd), k' :: ks')) -> look m t (k' :: ks') o -> look n (w ++ s) ks o
| lk_nowhere : forall n w s ks, Forall (fun c => (c <= 0x20)%N) w -> into (n + length w) s ks None ->
    look n (w ++ s) ks None
| lk_scalar : forall n w s ks, Forall (fun c => (c <= 0x20)%N) w -> (forall c r, s = c :: r -> (0x20 < c)%N) -> ~ opens s ->
    look n (w ++ s) ks None.

(** The text of a piece. *)
Definition piece_text (p : piece) : text := snd (fst p).
