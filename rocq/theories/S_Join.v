(** Specification of @join without [preserve]. *)
From Coq Require Import List NArith ZArith Bool.
From Verif Require Import M_Base M_Util S_Json S_Query S_Mod.
Import ListNotations.

(** Two members with the same (decoded) name. *)
Definition same_name (m m' : memb cst) : Prop := exists n, named m n /\ named m' n.

(** [out] merges [ms]: going through [ms], the members with a name not seen before
    appear in this order in [out], and each has the value of the last member of [ms]
    with its name. *)
Inductive firsts : list (memb cst) -> list (memb cst) -> Prop :=
| fi_nil : firsts [] []
| fi_new : forall ms fs m, firsts ms fs -> Forall (fun m' => ~ same_name m' m) ms -> firsts (ms ++ [m]) (fs ++ [m])
| fi_old : forall ms fs m, firsts ms fs -> Exists (fun m' => same_name m' m) ms -> firsts (ms ++ [m]) fs.
Definition last_value (ms : list (memb cst)) (m : memb cst) (v : cst) : Prop :=
  exists a l b, ms = a ++ l :: b /\ same_name l m /\ Forall (fun m' => ~ same_name m' m) b /\ m_val l = v.
Definition merged (ms out : list (memb cst)) : Prop :=
  exists fs, firsts ms fs /\
    Forall2 (fun m o => exists v, last_value ms m v /\ o = Memb [] (m_key m) [] [] v []) fs out.
