(** Specification vocabulary for onset voting, independent of the algorithm. *)
From Coq Require Import ZArith Relations Relation_Operators.
From Verif Require Import Rust F32 Consensus.
Local Open Scope Z_scope.

(** A report: a position and the method (0..3) that reported it. *)
Notation report := (Z * nat)%type.
Definition reported (c : onset_consensus) : list report :=
  map (fun s => (s, 0%nat)) (oc_energy_flux c) ++ map (fun s => (s, 1%nat)) (oc_spectral_flux c) ++
  map (fun s => (s, 2%nat)) (oc_hfc c) ++ map (fun s => (s, 3%nat)) (oc_hpss c).

(** The number of distinct methods among a group of reports. *)
Definition distinct_methods (p : list report) : nat := length (nodup Nat.eq_dec (map snd p)).

(** The candidate describes the group: its time is the (integer) mean of the group's
    positions and lies within the group's extent; its vote count is the number of
    distinct methods. *)
Definition represents (cd : candidate) (p : list report) : Prop :=
  p <> [] /\
  cd_time_samples cd = fold_right (fun r a => fst r + a) 0 p / Z.of_nat (length p) /\
  (forall lo, (forall r, In r p -> lo <= fst r) -> lo <= cd_time_samples cd) /\
  (forall hi, (forall r, In r p -> fst r <= hi) -> cd_time_samples cd <= hi) /\
  cd_voted_by cd = distinct_methods p.

(** Two groups are separated: every two positions differ by more than tol. *)
Definition separated (tol : Z) (p q : list report) : Prop :=
  forall a b, In a p -> In b q -> tol < Z.abs (fst a - fst b).
(** A group is chained: any two members are linked by steps of at most tol inside it. *)
Definition chained (tol : Z) (p : list report) : Prop :=
  forall a b, In a p -> In b p ->
    clos_refl_trans _ (fun x y => In x p /\ In y p /\ Z.abs (fst x - fst y) <= tol) a b.

Definition weight_of (w : f32 * f32 * f32 * f32) (m : nat) : f32 :=
  let '(w0, w1, w2, w3) := w in nth m [w0; w1; w2; w3] f0.
(** The candidate's confidence is the total weight of the group's reports (added in group
    order) relative to the total of the four weights, cut to [0,1]; its time in seconds
    is time/rate. *)
Definition weighs (w : f32 * f32 * f32 * f32) (sr : Z) (cd : candidate) (p : list report) : Prop :=
  let total := fsum (map (fun r => weight_of w (snd r)) p) in
  let maxw := fsum [weight_of w 0; weight_of w 1; weight_of w 2; weight_of w 3] in
  cd_confidence cd = (if flt f0 maxw then fclamp_val (fdiv total maxw) f0 f1 else f0) /\
  cd_time_seconds cd = fdiv (z2f (cd_time_samples cd)) (z2f sr).
