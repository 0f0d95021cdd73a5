(** Model of src/preprocessing/channel_mixer.rs. *)
From Verif Require Import Rust F32.

(** src/preprocessing/channel_mixer.rs:17-40 (enum ChannelMixMode). *)
Inductive mix_mode := Mono | MidSide | Dominant | Center.

(** src/preprocessing/channel_mixer.rs:107-142: the four per-sample closures.
    The zero literal 0.5 is [fhalf]. *)
Definition mix_sample (mode : mix_mode) (l r : f32) : f32 :=
  match mode with
  | Mono => fmul (fadd l r) fhalf
  | MidSide => fmul (fadd l r) fhalf
  | Dominant => if fge (fabs l) (fabs r) then l else r
  | Center => fmul (fadd l r) fhalf
  end.

(** [left.iter().zip(right.iter()).map(..).collect()] *)
Fixpoint zip_map {A B C} (f : A -> B -> C) (l : list A) (r : list B) : list C :=
  match l, r with
  | a :: l', b :: r' => f a b :: zip_map f l' r'
  | _, _ => []
  end.

(** src/preprocessing/channel_mixer.rs:80-145 stereo_to_mono (logging dropped). *)
Definition stereo_to_mono (left right : list f32) (mode : mix_mode) : outcome (list f32) :=
  if negb (length left =? length right) then Err InvalidInput
  else match left with
       | [] => Ok []
       | _ => Ok (zip_map (mix_sample mode) left right)
       end.
