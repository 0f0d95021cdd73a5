(** Model of src/features/key/detector.rs and key_clarity.rs.  Logging is dropped.

    Rust's HashMap iterates in an unspecified, per-map random order.  That order is a parameter:
    [hash_order] lists the entries of a vote map (or a count map) in the order the map's iterator
    yields them; theorems assume only that it is a permutation of the entries. *)
From Coq Require Import ZArith.
From Verif Require Import Rust F32 Sorting KeyNotation KeyTemplates.

Record hash_order := {
  ho_votes : list (key * f32) -> list (key * f32);
  ho_counts : list (key * (nat * f32)) -> list (key * (nat * f32)) }.

Definition key_eqb (a b : key) : bool :=
  match a, b with
  | Major i, Major j => Z.eqb i j
  | Minor i, Minor j => Z.eqb i j
  | _, _ => false
  end.
Definition is_major (k : key) : bool := match k with Major _ => true | Minor _ => false end.
Definition tonic (k : key) : Z := match k with Major i => i | Minor i => i end.

(** The 24 keys in the order they are pushed (detector.rs:118-133, 573-579, 798-804,
    924-929). *)
Definition all_keys : list key :=
  map (fun i => Major (Z.of_nat i)) (seq 0 12) ++ map (fun i => Minor (Z.of_nat i)) (seq 0 12).

Notation score := (key * f32)%type.

(** [Iterator::max_by]: the last of several maxima wins; [gt a b] = comparator answers Greater. *)
Definition max_by {A} (gt : A -> A -> bool) (l : list A) : option A :=
  match l with
  | [] => None
  | x :: r => Some (fold_left (fun acc y => if gt acc y then acc else y) r x)
  end.
(** [sort_by(|a, b| b.1.partial_cmp(&a.1).unwrap())]: every element takes part in a comparison when
    there are at least two, so a single NaN score panics. *)
Definition sort_or_panic (l : list score) : outcome (list score) :=
  if (2 <=? length l) && existsb (fun ks => fisnan (snd ks)) l then Panic
  else Ok (sort_desc snd l).

(** First score of a key satisfying p: [iter().find(..).map(|(_, s)| *s).unwrap_or(d)]. *)
Definition find_score (p : key -> bool) (l : list score) (d : f32) : f32 :=
  match find (fun ks => p (fst ks)) l with Some ks => snd ks | None => d end.

(** KeyDetectionResult, detector.rs returned by every detector. *)
Record key_result := {
  kr_key : key; kr_conf : f32; kr_scores : list score; kr_top : list score }.

(** detector.rs:979-981 dot_product. *)
Definition dot (a b : list f32) : f32 := fsum (map (fun xy => fmul (fst xy) (snd xy)) (combine a b)).
(** detector.rs:984-1001 weighted_sum_dot. *)
Definition weighted_sum_dot (chroma : list (list f32)) (w : option (list f32)) (t : list f32) : f32 :=
  match w with
  | None => fold_left (fun acc ch => fadd acc (dot ch t)) chroma f0
  | Some ws => fold_left (fun acc cw => if fgt (snd cw) f0
                                        then fadd acc (fmul (snd cw) (dot (fst cw) t)) else acc)
                         (combine chroma ws) f0
  end.

(** detector.rs:118-133 raw scores. *)
Definition raw_scores (chroma : list (list f32)) (t : templates) (w : option (list f32)) : list score :=
  map (fun k => (k, weighted_sum_dot chroma w (template_of t k))) all_keys.

(** detector.rs:138-167 per-mode normalization (threshold 1e-9). *)
Definition tiny9 : f32 := lit 9007199 (-53).
Definition mode_max (major : bool) (l : list score) : f32 :=
  fold_left fmax (map snd (filter (fun ks => Bool.eqb (is_major (fst ks)) major) l)) f0.
Definition mode_normalize (l : list score) : list score :=
  let mj := mode_max true l in
  let mn := mode_max false l in
  if fgt mj tiny9 && fgt mn tiny9
  then map (fun ks => (fst ks, fdiv (snd ks) (if is_major (fst ks) then mj else mn))) l
  else l.

(** detector.rs:177-198: best key of one mode. *)
Definition top_of_mode (major : bool) (l : list score) : score :=
  match max_by (fun a b => fgt (snd a) (snd b))
               (filter (fun ks => Bool.eqb (is_major (fst ks)) major) l) with
  | Some ks => ks
  | None => (if major then Major 0%Z else Minor 0%Z, f0)
  end.
(** detector.rs:209-232 distance on the circle of fifths; None when a tonic is not 0..11. *)
Definition circle_dist (a b : Z) : option Z :=
  match position a circle_major, position b circle_major with
  | Some p, Some q => let d := Z.abs (Z.of_nat p - Z.of_nat q) in Some (Z.min d (12 - d))
  | _, _ => None
  end.
(** detector.rs:200-243 circle-of-fifths bonus: 0.2, 0.1 and 0 for distances 0, 1 and 2. *)
Definition circle_bonus (l : list score) : list score :=
  map (fun ks =>
         let ref := top_of_mode (is_major (fst ks)) l in
         if fgt (snd ref) tiny9 then
           match circle_dist (tonic (fst ks)) (tonic (fst ref)) with
           | Some d =>
               if (d <=? 2)%Z then
                 let bonus := fmul (lit 13421773 (-26)) (fsub f1 (fmul (z2f d) fhalf)) in
                 (fst ks, fadd (snd ks) (fmul (snd ref) bonus))
               else ks
           | None => ks
           end
         else ks) l.

(** ((score - other) / score).clamp(0, 1), or 0 for a non-positive score: detector.rs:289-293,
    499-503, 684-688, 840-844, 951-955. *)
Definition margin_conf (score other : f32) : f32 :=
  if fgt score f0 then fclamp_val (fdiv (fsub score other) score) f0 f1 else f0.

(** detector.rs:250-275 choice of the final key; the top three keys are distinct, so each map entry
    holds 0.0 + score/best. *)
Definition vote (h : hash_order) (sorted : list score) (best : score) : key :=
  let second := match sorted with _ :: b :: _ => snd b | _ => f0 end in
  let third := match sorted with _ :: _ :: c :: _ => snd c | _ => f0 end in
  let thr := fmul (snd best) (lit 15938355 (-24)) in
  if fge second thr && fge third (fmul thr (lit 7549747 (-23))) then
    match max_by (fun a b => fgt (snd a) (snd b))
                 (ho_votes h (map (fun ks => (fst ks, fadd f0 (fdiv (snd ks) (snd best))))
                                  (firstn 3 sorted))) with
    | Some kv => fst kv
    | None => fst best
    end
  else fst best.

(** detector.rs:250, 278-312 result assembly. *)
Definition finish (h : hash_order) (sorted : list score) : outcome key_result :=
  let! best := get sorted 0 in
  let k := vote h sorted best in
  let final := find_score (key_eqb k) sorted (snd best) in
  let other := find_score (fun x => negb (key_eqb x k)) sorted f0 in
  Ok {| kr_key := k; kr_conf := margin_conf final other; kr_scores := sorted;
        kr_top := firstn 3 sorted |}.

(** detector.rs:79-112 validation. *)
Definition chroma_valid (chroma : list (list f32)) (w : option (list f32)) : bool :=
  negb (length chroma =? 0) && forallb (fun c => length c =? 12) chroma &&
  match w with None => true | Some ws => length ws =? length chroma end.

(** detector.rs:68-313 detect_key_weighted. *)
Definition detect_key_weighted (h : hash_order) (chroma : list (list f32)) (t : templates)
  (w : option (list f32)) : outcome key_result :=
  if chroma_valid chroma w then
    let! sorted := sort_or_panic (circle_bonus (mode_normalize (raw_scores chroma t w))) in
    finish h sorted
  else Err InvalidInput.

(** detector.rs:57-62 detect_key. *)
Definition detect_key (h : hash_order) (chroma : list (list f32)) (t : templates)
  : outcome key_result := detect_key_weighted h chroma t None.

(** detector.rs:345-377 weighted average chroma: (sum of weights, normalized distribution). *)
Definition avg_chroma (chroma : list (list f32)) (w : option (list f32)) : f32 * list f32 :=
  let ws := match w with
            | None => n2f (length chroma)
            | Some ws => fold_left (fun acc cw => if fle (snd cw) f0 then acc else fadd acc (snd cw))
                                   (combine chroma ws) f0
            end in
  let avg := map (fun i =>
       match w with
       | None => fold_left (fun acc ch => fadd acc (nth i ch f0)) chroma f0
       | Some ws => fold_left (fun acc cw => if fle (snd cw) f0 then acc
                                 else fadd acc (fmul (snd cw) (nth i (fst cw) f0)))
                              (combine chroma ws) f0
       end) (seq 0 12) in
  let sum := fsum avg in
  (ws, if fgt sum tiny9 then map (fun x => fdiv x sum) avg else avg).

(** detector.rs:382-394 minor-key leading-tone bonus. *)
Definition minor_bonus (wsum weight : f32) (avg : list f32) (l : list score) : list score :=
  let w := fmax weight f0 in
  if fgt w f0 then
    map (fun ks => match fst ks with
                   | Minor i =>
                       let lt := nth (Z.to_nat ((i + 11) mod 12)) avg f0 in
                       let b7 := nth (Z.to_nat ((i + 10) mod 12)) avg f0 in
                       (fst ks, fadd (snd ks) (fmul (fmul wsum w) (fsub lt b7)))
                   | Major _ => ks
                   end) l
  else l.

(** detector.rs:431-453: one degree's contribution to (minor score, major score). *)
Definition degree (margin weight pmin pmaj : f32) (acc : f32 * f32) : f32 * f32 :=
  let diff := fabs (fsub pmin pmaj) in
  if fgt pmin (fmul pmaj (fadd f1 margin)) then (fadd (fst acc) (fmul diff weight), snd acc)
  else if fgt pmaj (fmul pmin (fadd f1 margin)) then (fst acc, fadd (snd acc) (fmul diff weight))
  else acc.
(** detector.rs:417-466: (minor preferred, major preferred) for a tonic. *)
Definition mode_pref (margin0 : f32) (avg : list f32) (t : Z) : bool * bool :=
  let p j := nth (Z.to_nat ((t + j) mod 12)) avg f0 in
  let margin := fmax margin0 f0 in
  let s := degree margin f1 (p 10%Z) (p 11%Z)
             (degree margin f1 (p 8%Z) (p 9%Z) (degree margin f2 (p 3%Z) (p 4%Z) (f0, f0))) in
  let big := fgt (fadd (fst s) (snd s)) tiny9 in
  let k := fadd f1 (fmul margin fhalf) in
  (big && fgt (fst s) (fmul (snd s) k), big && fgt (snd s) (fmul (fst s) k)).

(** detector.rs:326-518 detect_key_weighted_mode_heuristic.  The re-sort uses [unwrap_or(Equal)].
    The score tables of lines 401-408 are lookups by key (each key occurs once). *)
Definition detect_key_mode (h : hash_order) (chroma : list (list f32)) (t : templates)
  (w : option (list f32)) (third_margin flip_min : f32) (minor_on : bool) (minor_weight : f32)
  : outcome key_result :=
  let! base := detect_key_weighted h chroma t w in
  let flip := fclamp_val flip_min f0 f1 in
  let enable := fgt flip f0 in
  if negb minor_on && negb enable then Ok base
  else
    let (wsum, avg) := avg_chroma chroma w in
    if fle wsum tiny9 then Ok base
    else
      let boosted := if minor_on then minor_bonus wsum minor_weight avg (kr_scores base)
                     else kr_scores base in
      let scores := sort_desc snd boosted in
      let! best := get scores 0 in
      let k := fst best in
      let sc x := find_score (key_eqb x) scores f0 in
      let (minor_pref, major_pref) := mode_pref third_margin avg (tonic k) in
      let alt := if is_major k then Minor (tonic k) else Major (tonic k) in
      let pref := if is_major k then minor_pref else major_pref in
      let chosen := if enable && pref && (fgt (sc k) f0 && fge (sc alt) (fmul (sc k) flip))
                    then alt else k in
      let other := fold_left (fun acc ks => if key_eqb (fst ks) chosen then acc
                                            else fmax acc (snd ks)) scores f0 in
      let top := firstn 3 scores in
      Ok {| kr_key := chosen; kr_conf := margin_conf (sc chosen) other; kr_scores := scores;
            kr_top := if existsb (fun ks => key_eqb (fst ks) chosen) top then top
                      else removelast top ++ [(chosen, sc chosen)] |}.

(** key_clarity.rs:51-93 compute_key_clarity; [partial_cmp().unwrap()] panics on NaN.  The minimum and
    maximum are folds with fmin/fmax; they may differ from min_by/max_by only in the sign of a zero,
    which does not change the range test or the quotient. *)
Definition key_clarity (l : list score) : outcome f32 :=
  if length l <? 2 then Ok f0
  else if existsb (fun ks => fisnan (snd ks)) l then Panic
  else
    let v := map snd l in
    let best := nth 0 v f0 in
    let avg := fdiv (fsum v) (n2f (length v)) in
    let mn := fold_left fmin v best in
    let mx := fold_left fmax v best in
    let range := fsub mx mn in
    Ok (if fgt range (lit 14411519 (-57)) then fclamp_val (fdiv (fsub best avg) range) f0 f1 else f0).

(** The per-segment call of detect_key_multi_scale (detector.rs:613-629 and 653-669). *)
Record scale_opts := {
  so_mode : bool; so_margin : f32; so_flip : f32; so_minor : bool; so_minor_weight : f32 }.
Definition detect_segment (h : hash_order) (o : scale_opts) (chroma : list (list f32))
  (t : templates) (w : option (list f32)) : outcome key_result :=
  if so_mode o || so_minor o
  then detect_key_mode h chroma t w (so_margin o) (if so_mode o then so_flip o else f0)
         (so_minor o) (so_minor_weight o)
  else detect_key_weighted h chroma t w.

(** detector.rs:604-610, 746-752: [frame_weights.and_then(|w| if start + len <= w.len() { Some(&w[..]) } else { None })] *)
Definition weights_slice (w : option (list f32)) (start len : nat) : option (list f32) :=
  match w with
  | Some ws => if start + len <=? length ws then Some (slice ws start (start + len)) else None
  | None => None
  end.

(** detector.rs:633-645: add one segment to the accumulator (scores, total weight, used).  Written as a
    map over the 24 accumulators; the code loops over the segment's scores, each key once. *)
Notation acc_state := (list score * f32 * nat)%type.
Definition accumulate (min_clarity scale_w clarity : f32) (res : list score) (st : acc_state) : acc_state :=
  let '(acc, total, used) := st in
  if fge clarity min_clarity then
    let cw := fmul clarity scale_w in
    (map (fun ks => match find (fun r => key_eqb (fst r) (fst ks)) res with
                    | Some r => (fst ks, fadd (snd ks) (fmul (snd r) cw))
                    | None => ks
                    end) acc,
     fadd total cw, S used)
  else st.

(** detector.rs:599-648: the segments of one scale.  [start] and [hop] are usize values; the sums
    [start + seg_len] and [start + hop] overflow to a panic.  [fuel] bounds the number of
    iterations; len+1 suffices because hop >= 1 (proved).  [hs] gives the hash order of the i-th call. *)
Fixpoint scale_loop (fuel : nat) (hs : nat -> hash_order) (o : scale_opts)
  (chroma : list (list f32)) (t : templates) (w : option (list f32)) (seg : nat) (hop : Z)
  (min_clarity scale_w : f32) (start : Z) (st : acc_state) : outcome acc_state :=
  match fuel with
  | O => Ok st
  | S fuel =>
      if (usize_max <? start + Z.of_nat seg)%Z then Panic
      else if (start + Z.of_nat seg <=? Z.of_nat (length chroma))%Z then
        let s := Z.to_nat start in
        let! r := detect_segment (hs s) o (slice chroma s (s + seg)) t (weights_slice w s seg) in
        let! c := key_clarity (kr_scores r) in
        let st' := accumulate min_clarity scale_w c (kr_scores r) st in
        if (usize_max <? start + hop)%Z then Panic
        else scale_loop fuel hs o chroma t w seg hop min_clarity scale_w (start + hop) st'
      else Ok st
  end.
(** detector.rs:585-649: all scales, in order.  [hs i s]: hash order of scale i at start s. *)
Fixpoint scales_loop (hs : nat -> nat -> hash_order) (o : scale_opts)
  (chroma : list (list f32)) (t : templates) (w : option (list f32)) (hop : Z) (min_clarity : f32)
  (scale_weights : option (list f32)) (i : nat) (lens : list nat) (st : acc_state)
  : outcome acc_state :=
  match lens with
  | [] => Ok st
  | seg :: r =>
      let next := scales_loop hs o chroma t w hop min_clarity scale_weights (S i) r in
      let sw := match scale_weights with
                | Some l => match nth_error l i with Some x => x | None => f1 end
                | None => f1 end in
      if (seg =? 0) || (length chroma <? seg) then next st
      else if fle sw f0 then next st
      else
        let! st' := scale_loop (S (length chroma)) (hs i) o chroma t w seg (Z.max hop 1)
                      min_clarity sw 0 st in
        next st'
  end.

(** The tail shared by the aggregating detectors: detector.rs:678-698, 943-975. *)
Definition report (sorted : list score) : outcome key_result :=
  let! best := get sorted 0 in
  let second := match sorted with _ :: b :: _ => snd b | _ => f0 end in
  Ok {| kr_key := fst best; kr_conf := margin_conf (snd best) second; kr_scores := sorted;
        kr_top := firstn 3 sorted |}.

(** detector.rs:546-700 detect_key_multi_scale. *)
Definition detect_key_multi_scale (hs : nat -> nat -> hash_order) (hglobal : hash_order)
  (chroma : list (list f32)) (t : templates) (w : option (list f32)) (lens : list nat) (hop : Z)
  (min_clarity : f32) (scale_weights : option (list f32)) (o : scale_opts) : outcome key_result :=
  if length chroma =? 0 then Err InvalidInput
  else if length lens =? 0 then Err InvalidInput
  else
    let! st := scales_loop hs o chroma t w hop min_clarity scale_weights 0 lens
                 (map (fun k => (k, f0)) all_keys, f0, 0) in
    let '(acc, total, used) := st in
    if (used =? 0) || fle total (lit 2305843 (-61)) then detect_segment hglobal o chroma t w
    else
      let! sorted := sort_or_panic (map (fun ks => (fst ks, fdiv (snd ks) total)) acc) in
      report sorted.

(** detector.rs:740-765: segment detections of the median detector; failed segments are skipped. *)
Fixpoint median_loop (fuel : nat) (hs : nat -> hash_order) (chroma : list (list f32))
  (t : templates) (w : option (list f32)) (seg : nat) (hop start : Z) : outcome (list key_result) :=
  match fuel with
  | O => Ok []
  | S fuel =>
      if (usize_max <? start + Z.of_nat seg)%Z then Panic
      else if (start + Z.of_nat seg <=? Z.of_nat (length chroma))%Z then
        let s := Z.to_nat start in
        match detect_key_weighted (hs s) (slice chroma s (s + seg)) t (weights_slice w s seg) with
        | Panic => Panic
        | res =>
            if (usize_max <? start + hop)%Z then Panic
            else
              let! rest := median_loop fuel hs chroma t w seg hop (start + hop) in
              Ok (match res with Ok r => r :: rest | _ => rest end)
        end
      else Ok []
  end.

(** HashMap entry counting in insertion order: detector.rs:772-779. *)
Definition bump (k : key) (c : f32) (m : list (key * (nat * f32))) : list (key * (nat * f32)) :=
  if existsb (fun e => key_eqb (fst e) k) m
  then map (fun e => if key_eqb (fst e) k then (fst e, (S (fst (snd e)), fadd (snd (snd e)) c)) else e) m
  else m ++ [(k, (1, fadd f0 c))].
Definition count_keys (l : list (key * f32)) : list (key * (nat * f32)) :=
  fold_left (fun m kc => bump (fst kc) (snd kc) m) l [].

(** detector.rs:721-863 detect_key_median. *)
Definition detect_key_median (hs : nat -> hash_order) (hglobal hcount : hash_order)
  (chroma : list (list f32)) (t : templates) (w : option (list f32))
  (seg_len : nat) (hop : Z) (min_segments : nat) : outcome key_result :=
  if length chroma =? 0 then Err InvalidInput
  else
    let seg := Nat.max (Nat.min seg_len (length chroma)) 120 in
    let! rs := median_loop (S (length chroma)) hs chroma t w seg (Z.max hop 1) 0 in
    if length rs <? Nat.max min_segments 1 then detect_key_weighted hglobal chroma t w
    else
      let counts := count_keys (map (fun r => (kr_key r, kr_conf r)) rs) in
      let gt a b := match Nat.compare (fst (snd a)) (fst (snd b)) with
                    | Gt => true | Lt => false | Eq => fgt (snd (snd a)) (snd (snd b)) end in
      match max_by gt (ho_counts hcount counts) with
      | None => Panic
      | Some e =>
          let k := fst e in
          let agg := map (fun x =>
            let st := fold_left (fun acc r =>
                match find (fun ks => key_eqb (fst ks) x) (kr_scores r) with
                | Some ks => (fadd (fst acc) (fmul (snd ks) (kr_conf r)), fadd (snd acc) (kr_conf r))
                | None => acc
                end) rs (f0, f0) in
            (x, if fgt (snd st) f0 then fdiv (fst st) (snd st) else f0)) all_keys in
          let sorted := sort_desc snd agg in
          let med := find_score (key_eqb k) sorted f0 in
          let second := find_score (fun x => negb (key_eqb x k)) sorted f0 in
          Ok {| kr_key := k; kr_conf := margin_conf med second; kr_scores := sorted;
                kr_top := firstn 3 sorted |}
      end.

(** detector.rs:881-976 detect_key_ensemble. *)
Definition detect_key_ensemble (h1 h2 : hash_order) (chroma : list (list f32))
  (w : option (list f32)) (kk_weight te_weight : f32) : outcome key_result :=
  let total := fadd kk_weight te_weight in
  let kk := if fgt total tiny9 then fdiv kk_weight total else fhalf in
  let te := if fgt total tiny9 then fdiv te_weight total else fhalf in
  let! r1 := detect_key_weighted h1 chroma (new_templates KrumhanslKessler) w in
  let! r2 := detect_key_weighted h2 chroma (new_templates Temperley) w in
  let comb := map (fun x => (x, fadd (fmul kk (find_score (key_eqb x) (kr_scores r1) f0))
                                     (fmul te (find_score (key_eqb x) (kr_scores r2) f0)))) all_keys in
  report (sort_desc snd comb).
