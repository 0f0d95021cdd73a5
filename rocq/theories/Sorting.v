(** [sort_by(|a, b| a.partial_cmp(b).unwrap_or(Equal))] and its descending form.

    [leb a b = true] iff the comparator does not answer Greater.  On keys
    without NaN the comparator is a total preorder and Rust's stable sort is
    determined; with NaN keys the comparator is inconsistent and Rust leaves
    the resulting order (or a panic, in recent versions) open, so theorems that
    rely on the order assume NaN-free keys. *)
From Coq Require Import Sorted.
From Verif Require Import Rust F32.

Definition asc_leb (x y : f32) : bool := negb (flt y x).
Definition sort_asc (l : list f32) : list f32 := sort_by asc_leb l.

Definition desc_leb {A} (key : A -> f32) (a b : A) : bool := negb (flt (key a) (key b)).
Definition sort_desc {A} (key : A -> f32) (l : list A) : list A := sort_by (desc_leb key) l.
