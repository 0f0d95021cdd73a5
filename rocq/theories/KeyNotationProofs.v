(** Specification and proofs for KeyNotation.v. *)
From Coq Require Import ZArith Lia.
From Verif Require Import Rust ListFacts KeyNotation.
Local Open Scope Z_scope.

(** ** Independent specification *)

(** Music theory: code number n denotes the major key n-1 fifths (7 semitones
    each) above C, and the minor key n-1 fifths above A. *)
Definition major_tonic (n : Z) : Z := (7 * (n - 1)) mod 12.
Definition minor_tonic (n : Z) : Z := (7 * (n - 1) + 9) mod 12.

(** Value of a digit string. *)
Definition digits (s : str) : Prop := Forall (fun b => 48 <= b <= 57) s.
Definition value (s : str) : Z := fold_left (fun a b => a * 10 + (b - 48)) s 0.

(** Keys as the library produces them: tonic in 0..11. *)
Definition canonical (k : key) : Prop :=
  match k with Major i => 0 <= i < 12 | Minor i => 0 <= i < 12 end.
Definition canon (k : key) : key :=
  match k with Major i => Major (i mod 12) | Minor i => Minor (i mod 12) end.

Definition all24 : list key :=
  map (fun n => Major (Z.of_nat n)) (seq 0 12) ++ map (fun n => Minor (Z.of_nat n)) (seq 0 12).

Lemma mod12_cases : forall i, 0 <= i < 12 -> In i [0;1;2;3;4;5;6;7;8;9;10;11].
Proof. intros. simpl. lia. Qed.

Lemma all24_complete : forall k, canonical k -> In k all24.
Proof.
  intros [i|i] H; simpl in H; apply mod12_cases in H; simpl in H;
    repeat (destruct H as [<-|H]; [vm_compute; tauto|]); contradiction.
Qed.

(** ** Round trip *)
Lemma round_trip : forall k, from_numerical (numerical k) = Ok (Some (canon k)).
Proof.
  intros [i|i]; unfold numerical, canon;
    pose proof (Z.mod_pos_bound i 12 ltac:(lia)) as H; revert H; generalize (i mod 12);
    intros j Hj; apply mod12_cases in Hj; simpl in Hj;
    repeat (destruct Hj as [<-|Hj]; [vm_compute; reflexivity|]); contradiction.
Qed.

Lemma numerical_shape : forall k, exists n,
  1 <= n <= 12 /\
  match k with
  | Major i => major_tonic n = i mod 12 /\ numerical k = dec n ++ [65]
  | Minor i => minor_tonic n = i mod 12 /\ numerical k = dec n ++ [66]
  end.
Proof.
  intros [i|i]; unfold numerical.
  - exists (position_or_0 (i mod 12) circle_major + 1).
    pose proof (Z.mod_pos_bound i 12 ltac:(lia)) as H; revert H; generalize (i mod 12);
    intros j Hj; apply mod12_cases in Hj; simpl in Hj;
    repeat (destruct Hj as [<-|Hj]; [vm_compute; intuition congruence|]); contradiction.
  - exists (position_or_0 (i mod 12) circle_minor + 1).
    pose proof (Z.mod_pos_bound i 12 ltac:(lia)) as H; revert H; generalize (i mod 12);
    intros j Hj; apply mod12_cases in Hj; simpl in Hj;
    repeat (destruct Hj as [<-|Hj]; [vm_compute; intuition congruence|]); contradiction.
Qed.

Lemma numerical_inj : forall k1 k2, numerical k1 = numerical k2 -> canon k1 = canon k2.
Proof.
  intros k1 k2 H. pose proof (round_trip k1) as H1. pose proof (round_trip k2) as H2.
  rewrite H in H1. congruence.
Qed.

Fixpoint str_eqb (a b : str) : bool :=
  match a, b with
  | [], [] => true
  | x :: a', y :: b' => (x =? y) && str_eqb a' b'
  | _, _ => false
  end.
Lemma str_eqb_eq : forall a b, str_eqb a b = true <-> a = b.
Proof.
  induction a as [|x a IH]; destruct b as [|y b]; simpl; split; intros H; try discriminate; auto.
  - apply andb_true_iff in H. destruct H as [H1 H2]. apply Z.eqb_eq in H1. apply IH in H2. congruence.
  - inversion H; subst. apply andb_true_iff. split. apply Z.eqb_refl. now apply IH.
Qed.

Lemma canon_canonical : forall k, canonical (canon k).
Proof. intros [i|i]; simpl; apply Z.mod_pos_bound; lia. Qed.
Lemma name_canon : forall k, key_name (canon k) = key_name k.
Proof. intros [i|i]; simpl; now rewrite Z.mod_mod by lia. Qed.

Definition key_eqb (a b : key) : bool :=
  match a, b with
  | Major i, Major j => i =? j | Minor i, Minor j => i =? j | _, _ => false
  end.
Lemma key_eqb_eq : forall a b, key_eqb a b = true <-> a = b.
Proof. intros [i|i] [j|j]; simpl; rewrite ?Z.eqb_eq; split; intros; congruence. Qed.

Lemma names_distinct_check :
  forallb (fun a => forallb (fun b => implb (str_eqb (key_name a) (key_name b)) (key_eqb a b)) all24) all24 = true.
Proof. vm_compute. reflexivity. Qed.

Lemma name_inj : forall k1 k2, key_name k1 = key_name k2 -> canon k1 = canon k2.
Proof.
  intros k1 k2 H. rewrite <- (name_canon k1), <- (name_canon k2) in H.
  pose proof names_distinct_check as C. rewrite forallb_forall in C.
  specialize (C _ (all24_complete _ (canon_canonical k1))). rewrite forallb_forall in C.
  specialize (C _ (all24_complete _ (canon_canonical k2))).
  apply str_eqb_eq in H. rewrite H in C. simpl in C. now apply key_eqb_eq.
Qed.

Lemma note_in_range : forall i, exists s, nth_error note_names (Z.to_nat (i mod 12)) = Some s.
Proof.
  intros. pose proof (Z.mod_pos_bound i 12 ltac:(lia)).
  destruct (nth_error note_names (Z.to_nat (i mod 12))) eqn:E; eauto.
  apply nth_error_None in E. simpl in E. lia.
Qed.

(** ** Parsing *)
Lemma value_gen : forall s acc, fold_left (fun a b => a * 10 + (b - 48)) s acc >= acc \/ ~ digits s \/ acc < 0.
Proof.
  induction s as [|b s IH]; intros acc; simpl; [lia|].
  destruct (Z_lt_dec acc 0); [tauto|].
  destruct (IH (acc * 10 + (b - 48))) as [H|[H|H]].
  - destruct (Z_le_dec 48 b). left; lia. right; left. intros D. inversion D; lia.
  - right; left. intros D. inversion D; tauto.
  - right; left. intros D. inversion D; lia.
Qed.
Lemma value_ge : forall s acc, digits s -> 0 <= acc ->
  acc <= fold_left (fun a b => a * 10 + (b - 48)) s acc.
Proof. intros s acc D H. destruct (value_gen s acc) as [?|[?|?]]; try lia; tauto. Qed.

Lemma parse_digits_spec : forall s acc n, 0 <= acc ->
  (parse_digits acc s = Some n /\ acc <= 4294967295) <->
  (digits s /\ n = fold_left (fun a b => a * 10 + (b - 48)) s acc /\ n <= 4294967295).
Proof.
  induction s as [|b s IH]; intros acc n Ha; simpl.
  - split.
    + intros [H1 H2]. inversion H1; subst. repeat split; auto. constructor.
    + intros (_ & -> & H). auto.
  - unfold is_digit. destruct (Z.leb_spec 48 b), (Z.leb_spec b 57); simpl.
    + destruct (Z.leb_spec (acc * 10 + (b - 48)) 4294967295).
      * specialize (IH (acc * 10 + (b - 48)) n ltac:(lia)). split.
        -- intros [H3 H4]. assert (P : parse_digits (acc * 10 + (b - 48)) s = Some n /\
             acc * 10 + (b - 48) <= 4294967295) by auto. apply IH in P. destruct P as (P1 & P2 & P3).
           repeat split; auto. constructor; auto.
        -- intros (D & E & L). inversion D; subst.
           assert (P : digits s /\ fold_left (fun a b => a * 10 + (b - 48)) s (acc * 10 + (b - 48)) =
              fold_left (fun a b => a * 10 + (b - 48)) s (acc * 10 + (b - 48)) /\
              fold_left (fun a b => a * 10 + (b - 48)) s (acc * 10 + (b - 48)) <= 4294967295) by auto.
           apply IH in P. split. tauto. lia.
      * split; [intros [? _]; discriminate|]. intros (D & E & L). inversion D; subst.
        pose proof (value_ge s (acc * 10 + (b - 48)) ltac:(auto) ltac:(lia)). lia.
    + split; [intros [? _]; discriminate|]. intros (D & _). inversion D; lia.
    + split; [intros [? _]; discriminate|]. intros (D & _). inversion D; lia.
    + split; [intros [? _]; discriminate|]. intros (D & _). inversion D; lia.
Qed.

(** An optional plus sign followed by a non-empty digit string. *)
Definition number_text (s : str) (n : Z) : Prop :=
  exists ds, (s = ds \/ s = 43 :: ds) /\ ds <> [] /\ digits ds /\ value ds = n /\ n <= 4294967295.

Lemma parse_u32_spec : forall s n, parse_u32 s = Some n <-> number_text s n.
Proof.
  assert (G : forall ds n, (digits ds /\ value ds = n /\ n <= 4294967295) <-> parse_digits 0 ds = Some n).
  { intros ds n. pose proof (parse_digits_spec ds 0 n ltac:(lia)) as H. unfold value.
    split.
    - intros (A & B & C). apply H. auto.
    - intros A. assert (B : parse_digits 0 ds = Some n /\ 0 <= 4294967295) by (split; auto; lia).
      apply H in B. intuition. }
  intros s n. unfold number_text. destruct s as [|b [|c r]].
  - simpl. split; [discriminate|]. intros (ds & [H|H] & Hn & _); [congruence|discriminate].
  - (* one byte *)
    simpl. unfold is_digit. destruct (Z.leb_spec 48 b), (Z.leb_spec b 57); simpl.
    + split.
      * intros E. inversion E; subst. exists [b]. unfold value; simpl.
        repeat split; auto; try discriminate; try lia. constructor; auto.
      * intros (ds & [<-|E] & Hn & D & V & L).
        -- unfold value in V; simpl in V. f_equal. lia.
        -- inversion E; subst. congruence.
    + split; [discriminate|]. intros (ds & [<-|E] & Hn & D & V & L); [inversion D; lia|].
      inversion E; subst; congruence.
    + split; [discriminate|]. intros (ds & [<-|E] & Hn & D & V & L); [inversion D; lia|].
      inversion E; subst; congruence.
    + split; [discriminate|]. intros (ds & [<-|E] & Hn & D & V & L); [inversion D; lia|].
      inversion E; subst; congruence.
  - cbn [parse_u32]. destruct (Z.eqb_spec b 43) as [->|Hb].
    + rewrite <- G. split.
      * intros (D & V & L). exists (c :: r). repeat split; auto; discriminate.
      * intros (ds & [E|E] & Hn & D & V & L).
        -- subst ds. inversion D; lia.
        -- inversion E; subst. auto.
    + rewrite <- G. split.
      * intros (D & V & L). exists (b :: c :: r). repeat split; auto; discriminate.
      * intros (ds & [E|E] & Hn & D & V & L).
        -- subst ds. auto.
        -- inversion E; congruence.
Qed.

Lemma circle_major_spec : forall n, 1 <= n <= 12 ->
  get circle_major (Z.to_nat (n - 1)) = Ok (major_tonic n).
Proof.
  intros n H. assert (E : n = 1 \/ n = 2 \/ n = 3 \/ n = 4 \/ n = 5 \/ n = 6 \/ n = 7 \/ n = 8 \/
    n = 9 \/ n = 10 \/ n = 11 \/ n = 12) by lia.
  repeat (destruct E as [->|E]; [vm_compute; reflexivity|]). subst; vm_compute; reflexivity.
Qed.
Lemma circle_minor_spec : forall n, 1 <= n <= 12 ->
  get circle_minor (Z.to_nat (n - 1)) = Ok (minor_tonic n).
Proof.
  intros n H. assert (E : n = 1 \/ n = 2 \/ n = 3 \/ n = 4 \/ n = 5 \/ n = 6 \/ n = 7 \/ n = 8 \/
    n = 9 \/ n = 10 \/ n = 11 \/ n = 12) by lia.
  repeat (destruct E as [->|E]; [vm_compute; reflexivity|]). subst; vm_compute; reflexivity.
Qed.

Lemma split_last : forall (s : str), s <> [] -> s = removelast s ++ [last s 0].
Proof. intros. now apply app_removelast_last. Qed.

Lemma from_numerical_panic : forall s,
  from_numerical s = Panic <-> exists p b, s = p ++ [b] /\ p <> [] /\ 128 <= b <= 191.
Proof.
  intros s. unfold from_numerical. destruct (Z.ltb_spec (Z.of_nat (length s)) 2) as [H|H].
  - split; [discriminate|]. intros (p & b & -> & Hp & _). rewrite app_length in H. simpl in H.
    destruct p; simpl in *; [congruence|lia].
  - assert (Hs : s <> []) by (intros ->; simpl in H; lia).
    pose proof (split_last s Hs) as E. unfold is_continuation.
    destruct (Z.leb_spec 128 (last s 0)), (Z.leb_spec (last s 0) 191); simpl.
    + split; auto. intros _. exists (removelast s), (last s 0). repeat split; auto.
      intros C. rewrite C in E. rewrite E in H. simpl in H. lia.
    + split.
      * destruct (parse_u32 _) as [n|]; [|discriminate].
        destruct (Z.leb_spec 1 n), (Z.leb_spec n 12); simpl; try discriminate.
        rewrite circle_major_spec, circle_minor_spec by lia.
        destruct (_ =? 65); simpl; [discriminate|]. destruct (_ =? 66); simpl; discriminate.
      * intros (p & b & E2 & _ & Hb). rewrite E2, last_last in *. lia.
    + split.
      * destruct (parse_u32 _) as [n|]; [|discriminate].
        destruct (Z.leb_spec 1 n), (Z.leb_spec n 12); simpl; try discriminate.
        rewrite circle_major_spec, circle_minor_spec by lia.
        destruct (_ =? 65); simpl; [discriminate|]. destruct (_ =? 66); simpl; discriminate.
      * intros (p & b & E2 & _ & Hb). rewrite E2, last_last in *. lia.
    + lia.
Qed.

Lemma from_numerical_spec : forall s k,
  from_numerical s = Ok (Some k) <->
  exists t n, number_text t n /\ 1 <= n <= 12 /\
    ((s = t ++ [65] /\ k = Major (major_tonic n)) \/ (s = t ++ [66] /\ k = Minor (minor_tonic n))).
Proof.
  intros s k. unfold from_numerical. destruct (Z.ltb_spec (Z.of_nat (length s)) 2) as [H|H].
  - split; [discriminate|]. intros (t & n & (ds & Ht & Hn & _) & _ & Hs).
    assert (L : (length t >= 1)%nat).
    { destruct Ht as [-> | ->]; simpl; [destruct ds; simpl; [congruence|lia]|lia]. }
    destruct Hs as [[-> _]|[-> _]]; rewrite app_length in H; simpl in H; lia.
  - assert (Hs : s <> []) by (intros ->; simpl in H; lia).
    pose proof (split_last s Hs) as E. split.
    + unfold is_continuation.
      destruct (_ && _); [discriminate|].
      destruct (parse_u32 (removelast s)) as [n|] eqn:P; [|discriminate].
      apply parse_u32_spec in P.
      destruct (Z.leb_spec 1 n), (Z.leb_spec n 12); simpl; try discriminate.
      rewrite circle_major_spec, circle_minor_spec by lia. simpl.
      destruct (Z.eqb_spec (last s 0) 65) as [L|L].
      * intros K. inversion K. exists (removelast s), n. split; auto. split; auto.
        left. split; auto. rewrite <- L. exact E.
      * destruct (Z.eqb_spec (last s 0) 66) as [L2|L2]; [|discriminate].
        intros K. inversion K. exists (removelast s), n. split; auto. split; auto.
        right. split; auto. rewrite <- L2. exact E.
    + intros (t & n & Ht & Hn & [[-> ->]|[-> ->]]); rewrite last_last, removelast_last; simpl;
        apply parse_u32_spec in Ht; rewrite Ht;
        destruct (Z.leb_spec 1 n), (Z.leb_spec n 12); simpl; try lia.
      * now rewrite circle_major_spec.
      * now rewrite circle_minor_spec.
Qed.

Lemma from_numerical_total : forall s,
  from_numerical s = Panic \/ exists r, from_numerical s = Ok r.
Proof.
  intros s. unfold from_numerical. destruct (_ <? 2); [eauto|]. destruct (is_continuation _); [auto|].
  destruct (parse_u32 _) as [n|]; [|eauto].
  destruct (Z.leb_spec 1 n), (Z.leb_spec n 12); simpl; eauto.
  rewrite circle_major_spec, circle_minor_spec by lia. simpl.
  destruct (_ =? 65); eauto. destruct (_ =? 66); eauto.
Qed.
