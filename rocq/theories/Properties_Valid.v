(** Properties C01, C02: validation. *)
From Coq Require Import String List.
From Verif Require Import M_Base S_Json M_Valid P_ValidSpec.

(** C01: [valid] answers true exactly on the JSON texts of RFC 8259, and false on
    every other byte string. *)
Theorem C01_valid_iff_rfc8259 : forall s : list N,
  (valid s = Ok true <-> json_text s) /\ (valid s = Ok false <-> ~ json_text s).
Proof. exact valid_exact. Qed.
Print Assumptions C01_valid_iff_rfc8259.

(** A nested document that is a JSON text, and a near miss that is not. *)
Example C01_case_yes : json_text (bs " {""a"" : [ -1.5e+3, ""é\n"", {}, [ ] ] , ""b"":null} ").
Proof. apply C01_valid_iff_rfc8259. vm_compute. reflexivity. Qed.
Example C01_case_no : ~ json_text (bs "{""a"":[01]}").
Proof. apply C01_valid_iff_rfc8259. vm_compute. reflexivity. Qed.

(** C02: [valid] never panics and always returns. *)
Theorem C02_valid_total : forall s : list N, exists b, valid s = Ok b.
Proof. exact valid_total. Qed.
Print Assumptions C02_valid_total.
Example C02_case : exists b, valid (bs "[""\u12") = Ok b.
Proof. apply C02_valid_total. Qed.
