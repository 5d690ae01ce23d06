(** C90: the conversions of numbers keep their order.
    [v_cmp] is the order of values ([Ord for Value]); [denotes s m e] (S_Num.v) says that
    the number [m * 10^e] is written. *)
From Coq Require Import Reals Lra ZArith String List.
From Coq.Floats Require Import SpecFloat.
From Flocq Require Import Core.
From Verif Require Import M_Base M_Util M_Num M_Value M_Get M_Valid S_Json S_Get S_Num S_Conv P_Mono.
Import ListNotations.
Open Scope list_scope.
Delimit Scope R_scope with R.

(** When one number comes before another one, no integer made of it is greater, whatever
    their texts are; i32() is the exception. *)
Theorem C90_int : forall a b, v_kind a = KNumber -> v_kind b = KNumber -> v_cmp a b = Ok Lt ->
  Forall (fun f : value -> M_Base.R Z => exists i j, f a = Ok i /\ f b = Ok j /\ (i <= j)%Z) [v_i64; v_i16; v_i8; v_u64; v_u32; v_u16; v_u8].
Proof. exact keep_ints. Qed.
Print Assumptions C90_int.
Theorem C90_i32_refuted : exists a b i j, v_kind a = KNumber /\ v_kind b = KNumber /\ valid (v_json a) = Ok true /\ valid (v_json b) = Ok true /\
  v_cmp a b = Ok Lt /\ v_i32 a = Ok i /\ v_i32 b = Ok j /\ (j < i)%Z.
Proof.
  assert (P : exists a b, parse (bs "2147483647") = Ok a /\ parse (bs "2147483648") = Ok b) by (do 2 eexists; split; vm_compute; reflexivity).
  destruct P as (a & b & Ea & Eb). exists a, b, 2147483647%Z, (-2147483648)%Z. vm_compute in Ea, Eb. injection Ea as <-. injection Eb as <-.
  do 7 (split; [vm_compute; reflexivity|]). reflexivity.
Qed.
Print Assumptions C90_i32_refuted.
(** Its f64() is less, and its f32() is not greater. *)
Theorem C90_float : forall a b, v_kind a = KNumber -> v_kind b = KNumber -> v_cmp a b = Ok Lt ->
  (exists x y, v_f64 a = Ok x /\ v_f64 b = Ok y /\ is_float 53 1024 x /\ is_float 53 1024 y /\ (float_val 1024 x < float_val 1024 y)%R) /\
  (exists x y, v_f32 a = Ok x /\ v_f32 b = Ok y /\ is_float 24 128 x /\ is_float 24 128 y /\ (float_val 128 x <= float_val 128 y)%R).
Proof. exact keep_float. Qed.
Print Assumptions C90_float.

(** By the numbers written, f64() keeps the order ... *)
Theorem C90_written : forall u v s t m e m' e', num_text u s -> num_text v t -> denotes s m e -> denotes t m' e' -> (num_val m e <= num_val m' e')%R ->
  exists x y, v_f64 u = Ok x /\ v_f64 v = Ok y /\ is_float 53 1024 x /\ is_float 53 1024 y /\ (float_val 1024 x <= float_val 1024 y)%R.
Proof. exact keep_written. Qed.
Print Assumptions C90_written.
(** ... and i64() does not: of two spellings of 2^53 + 1, one gives 2^53 + 1 and the other
    one 2^53.  The two compare as equal. *)
Theorem C90_written_refuted : exists a b m e m' e' i j, v_kind a = KNumber /\ v_kind b = KNumber /\ denotes (v_json a) m e /\ denotes (v_json b) m' e' /\
  (num_val m e <= num_val m' e')%R /\ v_cmp a b = Ok Eq /\ v_i64 a = Ok i /\ v_i64 b = Ok j /\ (j < i)%Z.
Proof.
  assert (P : exists a b, parse (bs "9007199254740993") = Ok a /\ parse (bs "9007199254740993.0") = Ok b) by (do 2 eexists; split; vm_compute; reflexivity).
  destruct P as (a & b & Ea & Eb). exists a, b, 9007199254740993%Z, 0%Z, 90071992547409930%Z, (-1)%Z, 9007199254740993%Z, 9007199254740992%Z. vm_compute in Ea, Eb. injection Ea as <-. injection Eb as <-.
  split; [reflexivity|]. split; [reflexivity|].
  assert (D : digits1 (bs "9007199254740993")) by (split; [discriminate|]; repeat (apply Forall_cons; [vm_compute; split; discriminate|]); apply Forall_nil).
  assert (D0 : digits1 (bs "0")) by (split; [discriminate|]; repeat (apply Forall_cons; [vm_compute; split; discriminate|]); apply Forall_nil).
  split; [exact (den_int false (bs "9007199254740993") [] 0%Z D ev_none)|]. split; [exact (den_frac false (bs "9007199254740993") (bs "0") [] 0%Z D D0 ev_none)|]. split.
  { unfold num_val. change (powerRZ 10 0) with 1%R. change (powerRZ 10 (-1)) with (/ (10 * 1))%R. rewrite !Rmult_1_r. lra. }
  do 3 (split; [vm_compute; reflexivity|]). reflexivity.
Qed.
Print Assumptions C90_written_refuted.

(** It is the spelling that does it: the integers keep the order of the numbers written when
    both are written as integers, when neither is, and when the one that is has at most
    53 bits.  [int_literal s z] (S_Get.v): an optional minus sign and digits. *)
Theorem C90_whole : forall u v s t z z', num_text u s -> num_text v t -> int_literal s z -> int_literal t z' -> (z <= z')%Z ->
  Forall (fun f : value -> M_Base.R Z => exists i j, f u = Ok i /\ f v = Ok j /\ (i <= j)%Z) [v_i64; v_i16; v_i8; v_u64; v_u32; v_u16; v_u8].
Proof. exact keep_whole. Qed.
Print Assumptions C90_whole.
Theorem C90_parts : forall u v s t m e m' e', num_text u s -> num_text v t -> denotes s m e -> denotes t m' e' ->
  (forall z, ~ int_literal s z) -> (forall z, ~ int_literal t z) -> (num_val m e <= num_val m' e')%R ->
  Forall (fun f : value -> M_Base.R Z => exists i j, f u = Ok i /\ f v = Ok j /\ (i <= j)%Z) [v_i64; v_i16; v_i8; v_u64; v_u32; v_u16; v_u8].
Proof. exact keep_parts. Qed.
Print Assumptions C90_parts.
Theorem C90_mixed : forall u v s t z m e, num_text u s -> num_text v t -> int_literal s z -> (Z.abs z <= 2 ^ 53)%Z -> denotes t m e -> (forall z, ~ int_literal t z) ->
  ((IZR z <= num_val m e)%R -> Forall (fun f : value -> M_Base.R Z => exists i j, f u = Ok i /\ f v = Ok j /\ (i <= j)%Z) [v_i64; v_i16; v_i8; v_u64; v_u32; v_u16; v_u8]) /\
  ((num_val m e <= IZR z)%R -> Forall (fun f : value -> M_Base.R Z => exists i j, f v = Ok i /\ f u = Ok j /\ (i <= j)%Z) [v_i64; v_i16; v_i8; v_u64; v_u32; v_u16; v_u8]).
Proof. exact keep_mixed. Qed.
Print Assumptions C90_mixed.
(** Numbers that compare as equal have the same f64(), and the same integers when neither is
    written as an integer. *)
Theorem C90_equal : forall a b m e m' e', v_kind a = KNumber -> v_kind b = KNumber -> denotes (v_json a) m e -> denotes (v_json b) m' e' -> v_cmp a b = Ok Eq ->
  (exists x y, v_f64 a = Ok x /\ v_f64 b = Ok y /\ is_float 53 1024 x /\ is_float 53 1024 y /\ float_val 1024 x = float_val 1024 y) /\
  ((forall z, ~ int_literal (v_json a) z) -> (forall z, ~ int_literal (v_json b) z) -> v_i64 a = v_i64 b /\ v_u64 a = v_u64 b).
Proof. exact keep_equal. Qed.
Print Assumptions C90_equal.

(** Three numbers in a document, in order, two of them beyond what an i64 or u64 can hold. *)
Example C90_case : exists a b c, get (bs "[-1e30, 18446744073709551616, 2e19]") (bs "0") = Ok a /\ get (bs "[-1e30, 18446744073709551616, 2e19]") (bs "1") = Ok b /\
  get (bs "[-1e30, 18446744073709551616, 2e19]") (bs "2") = Ok c /\ v_kind a = KNumber /\ v_kind b = KNumber /\ v_kind c = KNumber /\ v_cmp a b = Ok Lt /\ v_cmp b c = Ok Lt /\
  v_i64 a = Ok (- 2 ^ 63)%Z /\ v_i64 b = Ok (2 ^ 63 - 1)%Z /\ v_u64 a = Ok 0%Z /\ v_u64 b = Ok (2 ^ 64 - 1)%Z /\ v_u64 c = Ok (2 ^ 64 - 1)%Z.
Proof. do 3 eexists. do 12 (split; [vm_compute; reflexivity|]). vm_compute. reflexivity. Qed.
(** [7.25] and [725e-2] compare as equal, [7] is written as an integer, the two are not. *)
Lemma not_whole s : existsb (fun c => orb (N.eqb c 46) (N.eqb c 101)) s = true -> forall z, ~ int_literal s z.
Proof.
  intros H z Hz. apply existsb_exists in H as (c & Hc & E). apply Bool.orb_true_iff in E.
  assert (D : forall ds, digits1 ds -> ~ In c ds).
  { intros ds [_ F] Hi. rewrite Forall_forall in F. specialize (F _ Hi). destruct F as [F1 F2]. destruct E as [E|E]; apply N.eqb_eq in E; subst c; [apply F1|apply F2]; reflexivity. }
  destruct Hz as [ds Hd|ds Hd]; [exact (D _ Hd Hc)|]. destruct Hc as [<-|Hc]; [destruct E as [E|E]; discriminate E|exact (D _ Hd Hc)].
Qed.
Example C90_spelling : exists a b c, get (bs "[7, 7.25, 725e-2]") (bs "0") = Ok a /\ get (bs "[7, 7.25, 725e-2]") (bs "1") = Ok b /\
  get (bs "[7, 7.25, 725e-2]") (bs "2") = Ok c /\ num_text a (bs "7") /\ num_text b (bs "7.25") /\ num_text c (bs "725e-2") /\
  int_literal (bs "7") 7 /\ denotes (bs "7.25") 725 (-2) /\ denotes (bs "725e-2") 725 (-2) /\
  (forall z, ~ int_literal (bs "7.25") z) /\ (forall z, ~ int_literal (bs "725e-2") z) /\ v_cmp b c = Ok Eq /\ v_i64 b = Ok 7%Z /\ v_u8 c = Ok 7%Z.
Proof.
  assert (P : exists a b c, get (bs "[7, 7.25, 725e-2]") (bs "0") = Ok a /\ get (bs "[7, 7.25, 725e-2]") (bs "1") = Ok b /\ get (bs "[7, 7.25, 725e-2]") (bs "2") = Ok c)
    by (do 3 eexists; split; [|split]; vm_compute; reflexivity).
  destruct P as (a & b & c & Ea & Eb & Ec). exists a, b, c. split; [exact Ea|]. split; [exact Eb|]. split; [exact Ec|].
  vm_compute in Ea, Eb, Ec. injection Ea as <-. injection Eb as <-. injection Ec as <-.
  assert (D : forall d, (48 <= d <= 57)%N -> digits1 [d]) by (intros d Hd; split; [discriminate|]; constructor; [exact Hd|constructor]).
  assert (D2 : digits1 (bs "25")) by (split; [discriminate|]; repeat (apply Forall_cons; [vm_compute; split; discriminate|]); apply Forall_nil).
  assert (D3 : digits1 (bs "725")) by (split; [discriminate|]; repeat (apply Forall_cons; [vm_compute; split; discriminate|]); apply Forall_nil).
  assert (D7 : digits1 (bs "7")) by (apply D; vm_compute; split; discriminate).
  split; [apply nt_number; reflexivity|]. split; [apply nt_number; reflexivity|]. split; [apply nt_number; reflexivity|].
  split; [exact (il_pos (bs "7") D7)|]. split; [exact (den_frac false (bs "7") (bs "25") [] 0%Z D7 D2 ev_none)|].
  split; [|split; [apply not_whole; reflexivity|split; [apply not_whole; reflexivity|split; [vm_compute; reflexivity|split; vm_compute; reflexivity]]]].
  assert (D4 : digits1 (bs "2")) by (apply D; vm_compute; split; discriminate).
  exact (den_int false (bs "725") (bs "e-2") (-2)%Z D3 (ev_minus 101%N (bs "2") (or_introl eq_refl) D4)).
Qed.
