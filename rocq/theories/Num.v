(** Integer printing and parsing as in Rust's core library. *)
From Verif Require Import Base.
Ltac Zify.zify_post_hook ::= Z.div_mod_to_equations.
Local Open Scope N_scope.

Definition digit (n : N) : byte := n2b (48 + n).
Definition digit_val (b : byte) : option N :=
  if (48 <=? b2n b) && (b2n b <=? 57) then Some (b2n b - 48) else None.

(** Rust [impl Display for usize/u16] (decimal, no padding). *)
Fixpoint dec_fuel (f : nat) (n : N) : str :=
  match f with
  | O => []
  | S f' => if n <? 10 then [digit n] else dec_fuel f' (n / 10) ++ [digit (n mod 10)]
  end.
Definition dec (n : N) : str := dec_fuel (S (N.size_nat n)) n.

(** The digit loop of Rust [from_str_radix(10)]: checked multiply and add against [max]. *)
Fixpoint parse_loop (max acc : N) (s : str) : option N :=
  match s with
  | [] => Some acc
  | c :: s' =>
      match digit_val c with
      | None => None
      | Some d =>
          let acc' := acc * 10 + d in
          if max <? acc' then None else parse_loop max acc' s'
      end
  end.

(** Rust [str::parse::<usize>()]; [max] is [usize::MAX]. An optional single [+] is accepted. *)
Definition parse_uint (max : N) (s : str) : option N :=
  match s with
  | [] => None
  | c :: s' =>
      if byte_eqb c x2b
      then match s' with [] => None | _ => parse_loop max 0 s' end
      else parse_loop max 0 s
  end.

(** Rust [str::parse::<i32>()]. The magnitude limit is 2^31-1 for positive and 2^31 for negative
    literals (checked_mul / checked_sub in the negative branch). *)
Definition parse_i32 (s : str) : option Z :=
  match s with
  | [] => None
  | c :: s' =>
      if byte_eqb c x2d
      then match s' with
           | [] => None
           | _ => option_map (fun n => (- Z.of_N n)%Z) (parse_loop 2147483648 0 s')
           end
      else if byte_eqb c x2b
           then match s' with
                | [] => None
                | _ => option_map Z.of_N (parse_loop 2147483647 0 s')
                end
           else option_map Z.of_N (parse_loop 2147483647 0 s)
  end.

Definition usize_max (w : N) : N := 2 ^ w - 1.

(* ------------------------------------------------------------------ *)
(** ** Specification: the value of a digit string *)
Definition is_digit (b : byte) : Prop := 48 <= b2n b <= 57.
Definition digits_value (s : str) : N := fold_left (fun a b => a * 10 + (b2n b - 48)) s 0.
(** [s] is a number that fits into [bits] bits: decimal digits, possibly after a plus sign. *)
Definition numeral (bits : N) (s : str) (n : N) : Prop :=
  exists ds, (s = ds \/ s = bs "+" ++ ds) /\ ds <> [] /\ Forall is_digit ds /\ n = digits_value ds /\ n < 2 ^ bits.

(* ------------------------------------------------------------------ *)
Lemma digit_val_digit n : n < 10 -> digit_val (digit n) = Some n.
Proof.
  intros H. unfold digit_val, digit. rewrite b2n_n2b, N.mod_small by lia.
  destruct (N.leb_spec 48 (48 + n)), (N.leb_spec (48 + n) 57); try lia. simpl. f_equal. lia.
Qed.

Lemma digit_is_digit n : n < 10 -> is_digit (digit n).
Proof. intros H. unfold is_digit, digit. rewrite b2n_n2b, N.mod_small; lia. Qed.

Lemma digit_val_some b d : digit_val b = Some d <-> is_digit b /\ d = b2n b - 48.
Proof.
  unfold digit_val, is_digit. destruct (N.leb_spec 48 (b2n b)), (N.leb_spec (b2n b) 57); simpl; split;
    try (intros [= <-]; lia); try discriminate; try lia; intros [? ->]; reflexivity.
Qed.

Lemma digit_val_none b : digit_val b = None <-> ~ is_digit b.
Proof.
  unfold digit_val, is_digit. destruct (N.leb_spec 48 (b2n b)), (N.leb_spec (b2n b) 57); simpl; split;
    try discriminate; try lia; auto.
Qed.

Lemma fold_value_mono s a : a <= fold_left (fun a b => a * 10 + (b2n b - 48)) s a.
Proof.
  revert a. induction s as [|c s IH]; intros a; cbn [fold_left]; [lia|].
  eapply N.le_trans; [|apply IH]. lia.
Qed.

Lemma parse_loop_spec max acc s v :
  parse_loop max acc s = Some v <->
  Forall is_digit s /\ v = fold_left (fun a b => a * 10 + (b2n b - 48)) s acc /\ (s <> [] -> v <= max).
Proof.
  revert acc. induction s as [|c s IH]; intros acc; cbn [parse_loop fold_left].
  - split; [intros [= ->]; repeat split; auto; congruence | intros (_ & -> & _); reflexivity].
  - destruct (digit_val c) as [d|] eqn:Hd.
    + apply digit_val_some in Hd as [Hc ->].
      destruct (N.ltb_spec max (acc * 10 + (b2n c - 48))) as [Hm|Hm].
      * split; [discriminate|]. intros (_ & -> & Hle). exfalso.
        pose proof (fold_value_mono s (acc * 10 + (b2n c - 48))).
        specialize (Hle ltac:(discriminate)). lia.
      * rewrite IH. split.
        -- intros (Hs & -> & Hle). repeat split; auto. intros _.
           destruct s as [|c' s']; [simpl; exact Hm | apply Hle; discriminate].
        -- intros (Hs & -> & Hle). inversion Hs; subst. repeat split; auto.
           intros _. apply Hle. discriminate.
    + apply digit_val_none in Hd. split; [discriminate|]. intros (Hs & _). inversion Hs. contradiction.
Qed.

Lemma dec_fuel_value f n : n < 2 ^ N.of_nat f ->
  fold_left (fun a b => a * 10 + (b2n b - 48)) (dec_fuel (S f) n) 0 = n.
Proof.
  revert n. induction f as [|f IH]; intros n H.
  - simpl in H. assert (n = 0) as -> by lia. reflexivity.
  - remember (S f) as f1. cbn [dec_fuel]. destruct (N.ltb_spec n 10) as [Hn|Hn].
    + cbn [fold_left]. unfold digit. rewrite b2n_n2b, N.mod_small by lia. lia.
    + rewrite fold_left_app. subst f1. rewrite IH.
      * cbn [fold_left]. unfold digit. rewrite b2n_n2b, (N.mod_small (48 + _)) by lia. lia.
      * rewrite Nat2N.inj_succ, N.pow_succ_r' in H. lia.
Qed.

Lemma dec_value n : digits_value (dec n) = n.
Proof.
  unfold digits_value, dec. apply dec_fuel_value.
  destruct n as [|p]; [simpl; lia|].
  pose proof (N.size_gt (N.pos p)). 
  replace (N.of_nat (N.size_nat (N.pos p))) with (N.size (N.pos p)); [lia|].
  symmetry. apply N2Nat.inj. rewrite Nat2N.id. simpl. clear.
  induction p; simpl; rewrite ?Pos2Nat.inj_succ; auto; rewrite IHp; reflexivity.
Qed.

Lemma dec_fuel_digits f n : Forall is_digit (dec_fuel f n).
Proof.
  revert n. induction f as [|f IH]; intros n; cbn [dec_fuel]; [constructor|].
  destruct (N.ltb_spec n 10); [constructor; [apply digit_is_digit; lia|constructor]|].
  apply Forall_app. split; [apply IH|]. constructor; [|constructor]. apply digit_is_digit. lia.
Qed.

Lemma dec_digits n : Forall is_digit (dec n).
Proof. apply dec_fuel_digits. Qed.

Lemma dec_nonempty n : dec n <> [].
Proof.
  unfold dec. cbn [dec_fuel]. destruct (n <? 10); [discriminate|].
  intros H. apply app_eq_nil in H as [_ H]. discriminate.
Qed.

Lemma dec_inj a b : dec a = dec b -> a = b.
Proof. intros H. rewrite <- (dec_value a), <- (dec_value b). now rewrite H. Qed.

(** Printing then parsing a number that fits the target type gives it back. *)
Lemma parse_dec max n : n <= max -> parse_uint max (dec n) = Some n.
Proof.
  intros H. unfold parse_uint. pose proof (dec_nonempty n) as Hne. pose proof (dec_digits n) as Hd.
  pose proof (dec_value n) as Hv. unfold digits_value in Hv.
  destruct (dec n) as [|c s]; [congruence|].
  destruct (byte_eqb c x2b) eqn:Hc.
  - apply byte_eqb_eq in Hc as ->. inversion Hd as [|? ? H1 ?]; subst. destruct H1 as [H1 _]. vm_compute in H1. congruence.
  - apply parse_loop_spec. repeat split; auto.
Qed.

(** Exactly which strings parse as an unsigned number. *)
Lemma parse_uint_spec max s v :
  parse_uint max s = Some v <->
  exists ds, (s = ds \/ s = x2b :: ds) /\ ds <> [] /\ Forall is_digit ds /\
             v = digits_value ds /\ v <= max.
Proof.
  unfold parse_uint, digits_value. split.
  - destruct s as [|c s]; [discriminate|]. destruct (byte_eqb c x2b) eqn:Hc.
    + apply byte_eqb_eq in Hc as ->. destruct s as [|c' s']; [discriminate|].
      intros H. apply parse_loop_spec in H as (Hd & Hv & Hle). exists (c' :: s').
      repeat split; auto; try discriminate. apply Hle; discriminate.
    + intros H. apply parse_loop_spec in H as (Hd & Hv & Hle). exists (c :: s).
      repeat split; auto; try discriminate. apply Hle; discriminate.
  - intros (ds & Hs & Hne & Hd & Hv & Hle). destruct Hs as [-> | ->].
    + destruct ds as [|c ds]; [congruence|]. destruct (byte_eqb c x2b) eqn:Hc.
      * apply byte_eqb_eq in Hc as ->. inversion Hd as [|? ? H1 ?]; subst. destruct H1 as [H1 _]. vm_compute in H1. congruence.
      * apply parse_loop_spec. repeat split; auto.
    + rewrite byte_eqb_refl. destruct ds as [|c ds]; [congruence|].
      apply parse_loop_spec. repeat split; auto.
Qed.

Lemma numeral_iff bits s n : parse_uint (usize_max bits) s = Some n <-> numeral bits s n.
Proof.
  rewrite parse_uint_spec. unfold numeral, usize_max. change (bs "+") with [x2b]. cbn [app].
  assert (2 ^ bits <> 0) as P by (apply N.pow_nonzero; lia).
  split; intros (ds & H1 & H2 & H3 & H4 & H5); exists ds; repeat split; auto; lia.
Qed.
Lemma numeral_none bits s : parse_uint (usize_max bits) s = None <-> forall n, ~ numeral bits s n.
Proof.
  split.
  - intros H n Hn. apply numeral_iff in Hn. congruence.
  - intros H. destruct (parse_uint (usize_max bits) s) as [n|] eqn:E; [|reflexivity]. apply numeral_iff in E. exfalso. exact (H n E).
Qed.
Lemma numeral_fun bits s n n' : numeral bits s n -> numeral bits s n' -> n = n'.
Proof. intros H H'. apply numeral_iff in H, H'. congruence. Qed.
