(** Model of src/features/key/key_changes.rs.  Logging is dropped. *)
From Coq Require Import ZArith.
From Verif Require Import Rust F32 KeyNotation KeyTemplates KeyDetector.

(** key_changes.rs:18-31 KeyChange. *)
Record key_change := { kc_time : f32; kc_from : key; kc_to : key; kc_conf : f32 }.
(** One entry of segment_keys (key_changes.rs:46): timestamp, key, confidence. *)
Record segment_key := { sk_time : f32; sk_key : key; sk_conf : f32 }.
(** key_changes.rs:33-47 KeyChangeResult. *)
Record key_change_result := {
  kcr_key : key; kcr_conf : f32; kcr_changes : list key_change; kcr_segments : list segment_key }.

(** key_changes.rs:107-126: the segment loop.  [hs i] is the hash order of the vote map of segment i.
    The number of frames is below 2^63, so idx * hop + seg cannot overflow once the first test
    succeeded; [fuel] = length + 1 iterations suffice because hop is at least one. *)
Fixpoint segment_loop (fuel : nat) (hs : nat -> hash_order) (chroma : list (list f32)) (t : templates)
  (fps : f32) (seg hop : Z) (idx : nat) : outcome (list segment_key) :=
  match fuel with
  | O => Ok []
  | S fuel =>
      let start := (Z.of_nat idx * hop)%Z in
      if (start + seg <=? Z.of_nat (length chroma))%Z
      then match detect_key (hs idx) (slice chroma (Z.to_nat start) (Z.to_nat (start + seg))) t with
           | Ok r => let! rest := segment_loop fuel hs chroma t fps seg hop (S idx) in
                     Ok ({| sk_time := fdiv (z2f start) fps; sk_key := kr_key r; sk_conf := kr_conf r |} :: rest)
           | Err _ => segment_loop fuel hs chroma t fps seg hop (S idx)
           | Panic => Panic
           end
      else Ok []
  end.

(** key_changes.rs:150-172: adjacent segments with different keys and mean confidence above 0.2. *)
Definition change_threshold : f32 := lit 13421773 (-26).
Fixpoint changes_from (prev : segment_key) (l : list segment_key) : list key_change :=
  match l with
  | [] => []
  | cur :: r =>
      let rest := changes_from cur r in
      if key_eqb (sk_key prev) (sk_key cur) then rest
      else
        let cc := fdiv (fadd (sk_conf prev) (sk_conf cur)) (z2f 2) in
        if fgt cc change_threshold
        then {| kc_time := sk_time cur; kc_from := sk_key prev; kc_to := sk_key cur; kc_conf := cc |} :: rest
        else rest
  end.
Definition changes_of (l : list segment_key) : list key_change :=
  match l with [] => [] | x :: r => changes_from x r end.

(** key_changes.rs:70-187 detect_key_changes.  [h] orders the count map. *)
Definition detect_key_changes (hs : nat -> hash_order) (h : hash_order) (chroma : list (list f32))
  (sample_rate hop_size : Z) (t : templates) (duration overlap : f32) : outcome key_change_result :=
  if length chroma =? 0 then Err InvalidInput
  else
    let fps := fdiv (z2f sample_rate) (z2f hop_size) in
    let seg := f2usize (fmul duration fps) in
    let ovl := f2usize (fmul overlap fps) in
    if (seg <? ovl)%Z then Panic (* usize subtraction *)
    else
      let hop := (seg - ovl)%Z in
      if (seg =? 0)%Z || (hop =? 0)%Z then Err InvalidInput
      else
        let! segs := segment_loop (S (length chroma)) hs chroma t fps seg hop 0 in
        if length segs =? 0 then Err InvalidInput
        else
          match max_by (fun a b => fst (snd b) <? fst (snd a))
                  (ho_counts h (count_keys (map (fun s => (sk_key s, sk_conf s)) segs))) with
          | None => Panic
          | Some e => Ok {| kcr_key := fst e; kcr_conf := fdiv (snd (snd e)) (z2f (Z.of_nat (fst (snd e))));
                            kcr_changes := changes_of segs; kcr_segments := segs |}
          end.
