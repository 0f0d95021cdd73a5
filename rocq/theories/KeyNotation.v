(** Model of the key notation in src/analysis/result.rs.

    Strings are lists of UTF-8 bytes (each 0..255). *)
From Coq Require Import ZArith.
From Verif Require Import Rust.
Local Open Scope Z_scope.

Definition str := list Z.

(** src/analysis/result.rs:6-11 (enum Key, u32 payload as Z). *)
Inductive key := Major (i : Z) | Minor (i : Z).

(** src/analysis/result.rs:32-34 note_names. *)
Definition note_names : list str :=
  [[67]; [67;35]; [68]; [68;35]; [69]; [70]; [70;35]; [71]; [71;35]; [65]; [65;35]; [66]].

(** src/analysis/result.rs:31-39 Key::name.  [i % 12] is always in range, so the
    indexing cannot panic; the default is never used (proved: [note_in_range]). *)
Definition key_name (k : key) : str :=
  match k with
  | Major i => nth (Z.to_nat (i mod 12)) note_names []
  | Minor i => nth (Z.to_nat (i mod 12)) note_names [] ++ [109]
  end.

(** src/analysis/result.rs:63 and :126. *)
Definition circle_major : list Z := [0; 7; 2; 9; 4; 11; 6; 1; 8; 3; 10; 5].
(** src/analysis/result.rs:79 and :127. *)
Definition circle_minor : list Z := [9; 4; 11; 6; 1; 8; 3; 10; 5; 0; 7; 2].

(** [iter().position(|&x| x == k)] *)
Fixpoint position (k : Z) (l : list Z) : option nat :=
  match l with
  | [] => None
  | x :: r => if x =? k then Some 0%nat else option_map S (position k r)
  end.
Definition position_or_0 (k : Z) (l : list Z) : Z :=
  match position k l with Some p => Z.of_nat p | None => 0 end.

(** [format!("{}", n)] for 0 <= n < 100 (only 1..12 occurs). *)
Definition dec (n : Z) : str := if n <? 10 then [48 + n] else [48 + n / 10; 48 + n mod 10].

(** src/analysis/result.rs:60-87 Key::numerical. *)
Definition numerical (k : key) : str :=
  match k with
  | Major i => dec (position_or_0 (i mod 12) circle_major + 1) ++ [65]
  | Minor i => dec (position_or_0 (i mod 12) circle_minor + 1) ++ [66]
  end.

(** str::parse::<u32>() of the standard library: optional leading '+', then at
    least one ASCII digit, value at most u32::MAX (leading zeros are accepted). *)
Definition is_digit (b : Z) : bool := (48 <=? b) && (b <=? 57).
Fixpoint parse_digits (acc : Z) (s : str) : option Z :=
  match s with
  | [] => Some acc
  | b :: r =>
      if is_digit b then
        let v := acc * 10 + (b - 48) in
        if v <=? 4294967295 then parse_digits v r else None
      else None
  end.
Definition parse_u32 (s : str) : option Z :=
  match s with
  | [] => None
  | [b] => if is_digit b then Some (b - 48) else None
  | b :: r => if b =? 43 then parse_digits 0 r else parse_digits 0 s
  end.

(** A byte index is a char boundary unless the byte there is a UTF-8 continuation
    byte (0x80..0xBF); [str::split_at] panics off a boundary. *)
Definition is_continuation (b : Z) : bool := (128 <=? b) && (b <=? 191).

(** src/analysis/result.rs:113-140 Key::from_numerical. *)
Definition from_numerical (s : str) : outcome (option key) :=
  if (Z.of_nat (length s) <? 2) then Ok None
  else
    let suffix := last s 0 in
    let num_str := removelast s in
    if is_continuation suffix then Panic
    else
      match parse_u32 num_str with
      | None => Ok None
      | Some num =>
          if negb ((1 <=? num) && (num <=? 12)) then Ok None
          else if suffix =? 65 then
            let! i := get circle_major (Z.to_nat (num - 1)) in Ok (Some (Major i))
          else if suffix =? 66 then
            let! i := get circle_minor (Z.to_nat (num - 1)) in Ok (Some (Minor i))
          else Ok None
      end.
