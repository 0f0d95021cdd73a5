(** Model of src/features/key/templates.rs. *)
From Coq Require Import ZArith.
From Verif Require Import Rust F32 KeyNotation.

(** templates.rs:18-23 TemplateSet. *)
Inductive template_set := KrumhanslKessler | Temperley.

(** templates.rs:27-33 KeyTemplates ([Vec<f32>; 12] twice). *)
Record templates := { t_major : list (list f32); t_minor : list (list f32) }.

(** templates.rs:71-77 *)
Definition kk_major : list f32 :=
  [lit 13316915 (-21); lit 4676649 (-21); lit 7298089 (-21); lit 1221591 (-19);
   lit 4592763 (-20); lit 1072169 (-18); lit 5284823 (-21); lit 10884219 (-21);
   lit 10024387 (-22); lit 15351153 (-22); lit 2401239 (-20); lit 3019899 (-20)].
Definition kk_minor : list f32 :=
  [lit 3318743 (-19); lit 11240735 (-22); lit 7381975 (-21); lit 5641339 (-20);
   lit 5452595 (-21); lit 14805893 (-22); lit 2663383 (-20); lit 19 (-2);
   lit 8346665 (-21); lit 5641339 (-21); lit 14008975 (-22); lit 1661993 (-19)].
(** templates.rs:156-158 *)
Definition te_major : list f32 :=
  [z2f 5; z2f 2; lit 7 (-1); z2f 2; lit 9 (-1); z2f 4; z2f 2; lit 9 (-1); z2f 2; lit 7 (-1);
   lit 3 (-1); z2f 4].
Definition te_minor : list f32 :=
  [z2f 5; z2f 2; lit 7 (-1); z2f 5; z2f 2; lit 7 (-1); z2f 2; lit 9 (-1); lit 7 (-1); z2f 2;
   z2f 4; lit 7 (-1)].

(** templates.rs:113-127, 192-205: bin b of key k is bin (b + 12 - k) mod 12 of the base profile. *)
Definition rotated (base : list f32) (k : nat) : list f32 :=
  map (fun b => nth ((b + 12 - k) mod 12) base f0) (seq 0 12).

(** templates.rs:130-137, 208-215 l2_normalize. *)
Definition l2_normalize (v : list f32) : list f32 :=
  let norm := fsqrt (fsum (map (fun x => fmul x x) v)) in
  if fgt norm (lit 2305843 (-61)) then map (fun x => fdiv x norm) v else v.

Definition make_templates (maj min : list f32) : templates :=
  {| t_major := map (fun k => l2_normalize (rotated maj k)) (seq 0 12);
     t_minor := map (fun k => l2_normalize (rotated min k)) (seq 0 12) |}.
(** templates.rs:56-61 new_with_template_set (45: new = KrumhanslKessler). *)
Definition new_templates (s : template_set) : templates :=
  match s with
  | KrumhanslKessler => make_templates kk_major kk_minor
  | Temperley => make_templates te_major te_minor
  end.

(** templates.rs:252-267 get_major_template / get_minor_template: index modulo 12. *)
Definition template_of (t : templates) (k : key) : list f32 :=
  match k with
  | Major i => nth (Z.to_nat (i mod 12)) (t_major t) []
  | Minor i => nth (Z.to_nat (i mod 12)) (t_minor t) []
  end.
(** templates.rs:233-239 get_template: minor indices above 23 are out of bounds. *)
Definition get_template (t : templates) (i : Z) : outcome (list f32) :=
  if (i <? 12)%Z then get (t_major t) (Z.to_nat i) else get (t_minor t) (Z.to_nat (i - 12)).
