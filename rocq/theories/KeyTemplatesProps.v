(** C37: key templates are rotations of the tonic-0 template.

    The claim is false of the code for one template: normalisation happens after the rotation, and
    the sum of squares of the Krumhansl-Kessler B major template, taken in rotated order, rounds to
    a different norm.  [C37_refuted] exhibits it; [C37_rotation] proves the exact claim for the other
    47 templates and [C37_near] bounds the deviation for all of them. *)
From Coq Require Import ZArith Reals Lra.
From Flocq Require Import Core BinarySingleNaN.
From Verif Require Import Rust F32 KeyNotation KeyTemplates KeyTemplatesProofs.

Theorem C37_shape : forall s k,
  length (t_major (new_templates s)) = 12 /\ length (t_minor (new_templates s)) = 12 /\
  length (template_of (new_templates s) k) = 12.
Proof. intros s k. destruct (templates_scaled_len s). repeat split; auto using template_len. Qed.
Print Assumptions C37_shape.

(** Bit-for-bit rotation. [b] is the bin of the tonic-0 template, [(b + k) mod 12] its place in the
    template of tonic [k]. *)
Theorem C37_rotation : forall s k b, k < 12 -> b < 12 ->
  (~ (s = KrumhanslKessler /\ k = 11) ->
   nth ((b + k) mod 12) (template_of (new_templates s) (Major (Z.of_nat k))) f0
   = nth b (template_of (new_templates s) (Major 0)) f0) /\
  nth ((b + k) mod 12) (template_of (new_templates s) (Minor (Z.of_nat k))) f0
  = nth b (template_of (new_templates s) (Minor 0)) f0.
Proof.
  intros s k b Hk Hb; split.
  - intros N. apply (rotation_exact s true k b Hk Hb).
    destruct s; [|reflexivity]. cbn [exempt andb]. apply Nat.eqb_neq. intros ->. now apply N.
  - apply (rotation_exact s false k b Hk Hb). now destruct s.
Qed.
Print Assumptions C37_rotation.

Theorem C37_refuted : exists b, b < 12 /\
  nth ((b + 11) mod 12) (template_of (new_templates KrumhanslKessler) (Major 11)) f0
  <> nth b (template_of (new_templates KrumhanslKessler) (Major 0)) f0.
Proof.
  exists 0; split; [lia|]. intros H. apply (f_equal sf) in H.
  assert (E : sf_eqb (sf (nth ((0 + 11) mod 12) (template_of (new_templates KrumhanslKessler) (Major 11)) f0))
                     (sf (nth 0 (template_of (new_templates KrumhanslKessler) (Major 0)) f0)) = false)
    by (vm_compute; reflexivity).
  rewrite H in E. revert E. vm_compute. discriminate.
Qed.
Print Assumptions C37_refuted.

(** All 48 templates: within 2^-25 of the rotation, with entries in [1/16, 3/4]. *)
Theorem C37_near : forall s k b, k < 12 -> b < 12 ->
  let near x y := (Rabs (B2R x - B2R y) <= bpow radix2 (-25) /\ / 16 <= B2R x <= 3 / 4)%R in
  near (nth ((b + k) mod 12) (template_of (new_templates s) (Major (Z.of_nat k))) f0)
       (nth b (template_of (new_templates s) (Major 0)) f0) /\
  near (nth ((b + k) mod 12) (template_of (new_templates s) (Minor (Z.of_nat k))) f0)
       (nth b (template_of (new_templates s) (Minor 0)) f0).
Proof.
  intros s k b Hk Hb near; split.
  - exact (rotation_near s true k b Hk Hb).
  - exact (rotation_near s false k b Hk Hb).
Qed.
Print Assumptions C37_near.

(** Every template has Euclidean norm 1 up to 2^-22 in the squared norm. *)
Theorem C37_unit_norm : forall s k,
  (Rabs (fold_right (fun x a => B2R x * B2R x + a) 0 (template_of (new_templates s) k) - 1)
   <= bpow radix2 (-22))%R.
Proof. exact unit_norm. Qed.
Print Assumptions C37_unit_norm.

(** get_template(i): the 24 indices cover major then minor; larger indices panic. *)
Theorem C37_get_template : forall s i, (0 <= i)%Z ->
  get_template (new_templates s) i =
  if (i <? 12)%Z then Ok (template_of (new_templates s) (Major i))
  else if (i <? 24)%Z then Ok (template_of (new_templates s) (Minor (i - 12)))
  else Panic.
Proof.
  intros s i Hi. unfold get_template, get, template_of.
  destruct (templates_scaled_len s) as [L1 L2].
  destruct (i <? 12)%Z eqn:A; [apply Z.ltb_lt in A | apply Z.ltb_ge in A].
  - rewrite (Z.mod_small i 12) by lia. rewrite (nth_error_nth' _ []) by (rewrite L1; lia). reflexivity.
  - destruct (i <? 24)%Z eqn:B; [apply Z.ltb_lt in B | apply Z.ltb_ge in B].
    + rewrite (Z.mod_small (i - 12) 12) by lia.
      rewrite (nth_error_nth' _ []) by (rewrite L2; lia). reflexivity.
    + replace (nth_error (t_minor (new_templates s)) (Z.to_nat (i - 12))) with (@None (list f32));
        [reflexivity|]. symmetry. apply nth_error_None. rewrite L2; lia.
Qed.
Print Assumptions C37_get_template.

(** The fifth (bin 7) of C major is bin 2 of G major, and it is the second largest entry. *)
Example C37_example :
  map (fun b => sf_eqb (sf (nth ((b + 7) mod 12) (template_of (new_templates KrumhanslKessler) (Major 7)) f0))
                       (sf (nth b (template_of (new_templates KrumhanslKessler) (Major 0)) f0))) [0; 7; 11]
  = [true; true; true]
  /\ flt (nth 7 (template_of (new_templates KrumhanslKessler) (Major 0)) f0)
         (nth 0 (template_of (new_templates KrumhanslKessler) (Major 0)) f0) = true.
Proof. split; vm_compute; reflexivity. Qed.
