(** C07, C08: key notation. *)
From Coq Require Import ZArith.
From Verif Require Import Rust KeyNotation KeyNotationProofs.
Local Open Scope Z_scope.

(** Parsing a key's notation gives the key back (tonic reduced mod 12), for every
    key value including non-canonical tonics. *)
Theorem C07_round_trip : forall k, from_numerical (numerical k) = Ok (Some (canon k)).
Proof. exact round_trip. Qed.
Print Assumptions C07_round_trip.

(** The code is a number 1..12 that counts fifths, with suffix A (major) / B (minor). *)
Theorem C07_shape : forall k, exists n,
  1 <= n <= 12 /\
  match k with
  | Major i => (7 * (n - 1)) mod 12 = i mod 12 /\ numerical k = dec n ++ [65]
  | Minor i => (7 * (n - 1) + 9) mod 12 = i mod 12 /\ numerical k = dec n ++ [66]
  end.
Proof. exact numerical_shape. Qed.
Print Assumptions C07_shape.

(** Distinct keys have distinct codes and distinct names. *)
Theorem C07_codes_distinct : forall k1 k2, numerical k1 = numerical k2 -> canon k1 = canon k2.
Proof. exact numerical_inj. Qed.
Print Assumptions C07_codes_distinct.
Theorem C07_names_distinct : forall k1 k2, key_name k1 = key_name k2 -> canon k1 = canon k2.
Proof. exact name_inj. Qed.
Print Assumptions C07_names_distinct.

(** Accepted strings, exactly: optional '+', digits with value 1..12, then A or B.
    (So "01A" and "+1A" are accepted as well.) *)
Theorem C08_accepts_exactly : forall s k,
  from_numerical s = Ok (Some k) <->
  exists t n, number_text t n /\ 1 <= n <= 12 /\
    ((s = t ++ [65] /\ k = Major (major_tonic n)) \/ (s = t ++ [66] /\ k = Minor (minor_tonic n))).
Proof. exact from_numerical_spec. Qed.
Print Assumptions C08_accepts_exactly.

(** Panics happen exactly on strings of >= 2 bytes ending in a multi-byte character;
    every other string yields Some or None. *)
Theorem C08_panics_exactly : forall s,
  from_numerical s = Panic <-> exists p b, s = p ++ [b] /\ p <> [] /\ 128 <= b <= 191.
Proof. exact from_numerical_panic. Qed.
Print Assumptions C08_panics_exactly.

Theorem C08_total_otherwise : forall s,
  from_numerical s = Panic \/ exists r, from_numerical s = Ok r.
Proof. exact from_numerical_total. Qed.
Print Assumptions C08_total_otherwise.

(** The claim "never panics" is false of the code: "1♭"-like input, here the
    two-byte UTF-8 string for e-acute (0xC3 0xA9). *)
Theorem C08_no_panic_refuted : exists s, from_numerical s = Panic.
Proof. exists [195; 169]. vm_compute. reflexivity. Qed.
Print Assumptions C08_no_panic_refuted.

Example C07_case : numerical (Minor 18) = [52; 66] /\ from_numerical [52; 66] = Ok (Some (Minor 6)).
Proof. vm_compute. auto. Qed.
Example C08_case_plus : from_numerical [43; 48; 49; 50; 65] = Ok (Some (Major 5)).
Proof. vm_compute. reflexivity. Qed.
Example C08_case_none : from_numerical [49; 51; 65] = Ok None /\ from_numerical [49; 97] = Ok None.
Proof. vm_compute. auto. Qed.
