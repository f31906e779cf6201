(** [std::str::from_utf8] / [String::from_utf8]: the validation automaton of
    [core::str::validations::run_utf8_validation]. *)
From Verif Require Import Base.
Ltac Zify.zify_post_hook ::= Z.div_mod_to_equations.
Local Open Scope N_scope.

Definition in_range (b : byte) (lo hi : N) : bool := (lo <=? b2n b) && (b2n b <=? hi).
Definition is_cont (b : byte) : bool := in_range b 128 191.

(** First byte / second byte table for three and four byte sequences. *)
Definition ok3 (a b : byte) : bool :=
  (N.eqb (b2n a) 224 && in_range b 160 191) ||
  (in_range a 225 236 && in_range b 128 191) ||
  (N.eqb (b2n a) 237 && in_range b 128 159) ||
  (in_range a 238 239 && in_range b 128 191).
Definition ok4 (a b : byte) : bool :=
  (N.eqb (b2n a) 240 && in_range b 144 191) ||
  (in_range a 241 243 && in_range b 128 191) ||
  (N.eqb (b2n a) 244 && in_range b 128 143).

Fixpoint valid_utf8 (s : str) : bool :=
  match s with
  | [] => true
  | a :: t =>
      if b2n a <? 128 then valid_utf8 t
      else match t with
           | [] => false
           | b :: t1 =>
               if in_range a 194 223 then is_cont b && valid_utf8 t1
               else match t1 with
                    | [] => false
                    | c :: t2 =>
                        if ok3 a b then is_cont c && valid_utf8 t2
                        else match t2 with
                             | [] => false
                             | d :: t3 => ok4 a b && is_cont c && is_cont d && valid_utf8 t3
                             end
                    end
           end
  end.

(* ------------------------------------------------------------------ *)
(** ** Specification: UTF-8 (RFC 3629) encodings of Unicode scalar values *)
Definition scalar (c : N) : Prop := c < 55296 \/ (57344 <= c /\ c < 1114112).

Definition utf8_encode (c : N) : str :=
  if c <? 128 then [n2b c]
  else if c <? 2048 then [n2b (192 + c / 64); n2b (128 + c mod 64)]
  else if c <? 65536 then [n2b (224 + c / 4096); n2b (128 + c / 64 mod 64); n2b (128 + c mod 64)]
  else [n2b (240 + c / 262144); n2b (128 + c / 4096 mod 64); n2b (128 + c / 64 mod 64); n2b (128 + c mod 64)].

Definition is_utf8 (s : str) : Prop :=
  exists cs, Forall scalar cs /\ s = concat (map utf8_encode cs).

Lemma enc1 c : c < 128 -> utf8_encode c = [n2b c].
Proof. intros H. unfold utf8_encode. destruct (N.ltb_spec c 128); [reflexivity|lia]. Qed.
Lemma enc2 c : 128 <= c -> c < 2048 -> utf8_encode c = [n2b (192 + c / 64); n2b (128 + c mod 64)].
Proof.
  intros H H2. unfold utf8_encode. destruct (N.ltb_spec c 128); [lia|].
  destruct (N.ltb_spec c 2048); [reflexivity|lia].
Qed.
Lemma enc3 c : 2048 <= c -> c < 65536 ->
  utf8_encode c = [n2b (224 + c / 4096); n2b (128 + c / 64 mod 64); n2b (128 + c mod 64)].
Proof.
  intros H H2. unfold utf8_encode. destruct (N.ltb_spec c 128); [lia|].
  destruct (N.ltb_spec c 2048); [lia|]. destruct (N.ltb_spec c 65536); [reflexivity|lia].
Qed.
Lemma enc4 c : 65536 <= c ->
  utf8_encode c = [n2b (240 + c / 262144); n2b (128 + c / 4096 mod 64); n2b (128 + c / 64 mod 64); n2b (128 + c mod 64)].
Proof.
  intros H. unfold utf8_encode. destruct (N.ltb_spec c 128); [lia|].
  destruct (N.ltb_spec c 2048); [lia|]. destruct (N.ltb_spec c 65536); [lia|reflexivity].
Qed.

Lemma n2b_eq b n : b2n b = n -> b = n2b n.
Proof. intros <-. now rewrite n2b_b2n. Qed.

Ltac boolsplit :=
  repeat match goal with
  | H : _ && _ = true |- _ => apply andb_true_iff in H as [? ?]
  | H : (_ <=? _) = true |- _ => apply N.leb_le in H
  | H : (_ =? _) = true |- _ => apply N.eqb_eq in H
  | H : (_ <? _) = true |- _ => apply N.ltb_lt in H
  | H : (_ <? _) = false |- _ => apply N.ltb_ge in H
  end.

Lemma in_range_spec b lo hi : in_range b lo hi = true <-> lo <= b2n b <= hi.
Proof. unfold in_range. rewrite andb_true_iff, N.leb_le, N.leb_le. tauto. Qed.

Lemma valid_utf8_sound_aux n s : (length s <= n)%nat -> valid_utf8 s = true -> is_utf8 s.
Proof.
  revert s. induction n as [|n IH]; intros s Hl H.
  { destruct s; [|simpl in Hl; lia]. exists []. split; [constructor|reflexivity]. }
  destruct s as [|a t]; [exists []; split; [constructor|reflexivity]|].
  pose proof (b2n_lt a) as La. cbn [valid_utf8] in H.
  destruct (N.ltb_spec (b2n a) 128) as [Ha|Ha].
  { destruct (IH t) as (cs & Hcs & ->); [simpl in Hl; lia|exact H|].
    exists (b2n a :: cs). split; [constructor; [left; lia|exact Hcs]|]. cbn [map concat].
    rewrite enc1 by lia. cbn [app]. now rewrite n2b_b2n. }
  destruct t as [|b t1]; [discriminate|]. pose proof (b2n_lt b) as Lb.
  destruct (in_range a 194 223) eqn:R2.
  { apply andb_true_iff in H as [Hb H]. apply in_range_spec in R2, Hb.
    destruct (IH t1) as (cs & Hcs & ->); [simpl in Hl; lia|exact H|].
    exists ((b2n a - 192) * 64 + (b2n b - 128) :: cs). split; [constructor; [left; lia|exact Hcs]|].
    cbn [map concat]. rewrite enc2 by lia. cbn [app].
    f_equal; [apply n2b_eq; lia|]. f_equal. apply n2b_eq; lia. }
  destruct t1 as [|c t2]; [discriminate|]. pose proof (b2n_lt c) as Lc.
  destruct (ok3 a b) eqn:R3.
  { apply andb_true_iff in H as [Hc H]. apply in_range_spec in Hc.
    destruct (IH t2) as (cs & Hcs & ->); [simpl in Hl; lia|exact H|].
    exists ((b2n a - 224) * 4096 + (b2n b - 128) * 64 + (b2n c - 128) :: cs).
    assert (224 <= b2n a <= 239 /\ 128 <= b2n b <= 191 /\
            ((b2n a = 224 -> 160 <= b2n b) /\ (b2n a = 237 -> b2n b <= 159))) as (Ra & Rb & R0 & R1).
    { unfold ok3 in R3. rewrite !orb_true_iff, !andb_true_iff, !in_range_spec, !N.eqb_eq in R3. lia. }
    assert (2048 <= (b2n a - 224) * 4096 + (b2n b - 128) * 64 + (b2n c - 128)) by lia.
    split; [constructor; [unfold scalar; lia|exact Hcs]|].
    cbn [map concat]. rewrite enc3 by lia. cbn [app].
    f_equal; [apply n2b_eq; lia|]. f_equal; [apply n2b_eq; lia|]. f_equal. apply n2b_eq; lia. }
  destruct t2 as [|d t3]; [discriminate|]. pose proof (b2n_lt d) as Ld.
  apply andb_true_iff in H as [H Hv]. apply andb_true_iff in H as [H Hd].
  apply andb_true_iff in H as [R4 Hc]. apply in_range_spec in Hc, Hd.
  destruct (IH t3) as (cs & Hcs & ->); [simpl in Hl; lia|exact Hv|].
  exists ((b2n a - 240) * 262144 + (b2n b - 128) * 4096 + (b2n c - 128) * 64 + (b2n d - 128) :: cs).
  assert (240 <= b2n a <= 244 /\ 128 <= b2n b <= 191 /\
          ((b2n a = 240 -> 144 <= b2n b) /\ (b2n a = 244 -> b2n b <= 143))) as (Ra & Rb & R0 & R1).
  { unfold ok4 in R4. rewrite !orb_true_iff, !andb_true_iff, !in_range_spec, !N.eqb_eq in R4. lia. }
  assert (65536 <= (b2n a - 240) * 262144 + (b2n b - 128) * 4096 + (b2n c - 128) * 64 + (b2n d - 128)) by lia.
  split; [constructor; [unfold scalar; lia|exact Hcs]|].
  cbn [map concat]. rewrite enc4 by lia. cbn [app].
  f_equal; [apply n2b_eq; lia|]. f_equal; [apply n2b_eq; lia|].
  f_equal; [apply n2b_eq; lia|]. f_equal. apply n2b_eq; lia.
Qed.

Lemma in_range_true b lo hi : lo <= b2n b <= hi -> in_range b lo hi = true.
Proof. apply in_range_spec. Qed.
Lemma in_range_false b lo hi : ~ (lo <= b2n b <= hi) -> in_range b lo hi = false.
Proof. intros H. destruct (in_range b lo hi) eqn:E; auto. apply in_range_spec in E. contradiction. Qed.

Lemma valid_utf8_encode c s : scalar c -> valid_utf8 (utf8_encode c ++ s) = valid_utf8 s.
Proof.
  intros Hc. unfold utf8_encode.
  destruct (N.ltb_spec c 128).
  { cbn [app valid_utf8]. rewrite b2n_n2b, N.mod_small by lia.
    destruct (N.ltb_spec c 128); [reflexivity|lia]. }
  destruct (N.ltb_spec c 2048).
  { assert (c / 64 < 32 /\ 2 <= c / 64) by lia. assert (c mod 64 < 64) by lia.
    cbn [app valid_utf8]. rewrite b2n_n2b, N.mod_small by lia.
    destruct (N.ltb_spec (192 + c / 64) 128); [lia|].
    rewrite (in_range_true (n2b _) 194 223) by (rewrite b2n_n2b, N.mod_small; lia).
    unfold is_cont. rewrite in_range_true by (rewrite b2n_n2b, N.mod_small; lia). reflexivity. }
  destruct (N.ltb_spec c 65536).
  { assert (c / 4096 < 16) by lia. assert (c mod 64 < 64) by lia. assert (c / 64 mod 64 < 64) by lia.
    cbn [app valid_utf8]. rewrite b2n_n2b, N.mod_small by lia.
    destruct (N.ltb_spec (224 + c / 4096) 128); [lia|].
    rewrite (in_range_false (n2b _) 194 223) by (rewrite b2n_n2b, N.mod_small; lia).
    assert (ok3 (n2b (224 + c / 4096)) (n2b (128 + c / 64 mod 64)) = true) as ->.
    { unfold ok3. rewrite !orb_true_iff, !andb_true_iff, !in_range_spec, !N.eqb_eq.
      rewrite !b2n_n2b, !(N.mod_small _ 256) by lia. unfold scalar in Hc. lia. }
    unfold is_cont. rewrite in_range_true by (rewrite b2n_n2b, N.mod_small; lia). reflexivity. }
  assert (c / 262144 < 5) by (unfold scalar in Hc; lia). assert (c mod 64 < 64) by lia.
  assert (c / 64 mod 64 < 64) by lia. assert (c / 4096 mod 64 < 64) by lia.
  cbn [app valid_utf8]. rewrite b2n_n2b, N.mod_small by lia.
  destruct (N.ltb_spec (240 + c / 262144) 128); [lia|].
  rewrite (in_range_false (n2b _) 194 223) by (rewrite b2n_n2b, N.mod_small; lia).
  assert (ok3 (n2b (240 + c / 262144)) (n2b (128 + c / 4096 mod 64)) = false) as ->.
  { unfold ok3. rewrite !orb_false_iff, !andb_false_iff.
    repeat split; left; try (apply in_range_false); try apply N.eqb_neq;
      rewrite !b2n_n2b, !(N.mod_small _ 256) by lia; lia. }
  assert (ok4 (n2b (240 + c / 262144)) (n2b (128 + c / 4096 mod 64)) = true) as ->.
  { unfold ok4. rewrite !orb_true_iff, !andb_true_iff, !in_range_spec, !N.eqb_eq.
    rewrite !b2n_n2b, !(N.mod_small _ 256) by lia. unfold scalar in Hc. lia. }
  unfold is_cont. rewrite !in_range_true by (rewrite b2n_n2b, N.mod_small; lia). reflexivity.
Qed.

(** The validator accepts exactly the concatenations of encoded scalar values. *)
Theorem valid_utf8_iff s : valid_utf8 s = true <-> is_utf8 s.
Proof.
  split; [apply valid_utf8_sound_aux with (n := length s); lia|].
  intros (cs & Hcs & ->). induction Hcs as [|c cs Hc Hcs IH]; [reflexivity|].
  simpl. now rewrite valid_utf8_encode.
Qed.

Lemma valid_utf8_ascii s : Forall (fun b => b2n b < 128) s -> valid_utf8 s = true.
Proof.
  induction 1 as [|b s Hb Hs IH]; [reflexivity|]. cbn [valid_utf8].
  destruct (N.ltb_spec (b2n b) 128); [exact IH|lia].
Qed.
