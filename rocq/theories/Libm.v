(** The platform mathematics functions used by the crate (Rust's f32 methods that call
    libm).  They are parameters of the model: theorems hold for every choice of these
    functions, under the hypotheses they state explicitly. *)
From Verif Require Import Rust F32.

Record libm := {
  m_powf : f32 -> f32 -> f32;
  m_log10 : f32 -> f32;
  m_log2 : f32 -> f32;
  m_ln : f32 -> f32;
  m_exp : f32 -> f32;
  m_sin : f32 -> f32;
  m_cos : f32 -> f32 }.
