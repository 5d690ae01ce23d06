(** pretty.rs:29-80: the options of the pretty printer as the API builds them. *)
From Verif Require Import M_Base M_Pretty.
From Coq Require Import ZArith NArith.

(** [width as i64] for a [usize] of 64 bits (pretty.rs:51): values from 2^63 on become
    negative. *)
Definition usize_as_i64 (w : N) : Z :=
  if (w <? 2 ^ 63)%N then Z.of_N w else (Z.of_N w - 2 ^ 64)%Z.

(** pretty.rs:47-49 [PrettyOptions::new]. *)
Definition opts_new : popts := popts_default.
(** pretty.rs:50-53 [PrettyOptions::width]. *)
Definition opts_width (o : popts) (w : N) : popts :=
  mkOpts (usize_as_i64 w) (o_prefix o) (o_indent o) (o_sort o).
(** pretty.rs:54-57 [PrettyOptions::prefix]. *)
Definition opts_prefix (o : popts) (p : bytes) : popts :=
  mkOpts (o_width o) p (o_indent o) (o_sort o).
(** pretty.rs:58-61 [PrettyOptions::indent]. *)
Definition opts_indent (o : popts) (i : bytes) : popts :=
  mkOpts (o_width o) (o_prefix o) i (o_sort o).
(** pretty.rs:62-65 [PrettyOptions::sort_keys]. *)
Definition opts_sort_keys (o : popts) (b : bool) : popts :=
  mkOpts (o_width o) (o_prefix o) (o_indent o) b.
(** pretty.rs:66-71 [PrettyOptions::pretty]. *)
Definition opts_pretty (o : popts) (json : bytes) : R bytes := pretty_options json o.
