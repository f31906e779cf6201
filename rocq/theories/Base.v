(** Bytes, strings and outcomes shared by all models.

    A Rust [u8] is a [byte]; a [Vec<u8>], [&[u8]], [String] or [&str] is a [list byte]
    (a Rust string is its UTF-8 encoding; validity is stated separately, see Utf8.v). *)
From Coq Require Export List Arith NArith ZArith Lia Bool Permutation.
From Coq Require Export ZifyBool ZifyNat ZifyN.
From Coq Require Export Strings.Byte.
From Coq Require Import Strings.String Strings.Ascii.
Export ListNotations.

Definition str := list byte.

(** String literals. *)
Definition bs (s : string) : str := list_byte_of_string s.
Global Arguments bs s%string_scope.
Export (notations) Coq.Strings.String.

(** Outcome of a Rust function returning [Result<A, E>]; [Panic] is an unwinding panic.
    [OutOfFuel] is not a behaviour of the code: it marks a model loop whose iteration bound was too
    small; the theorems show it never arises. *)
Inductive res (E A : Type) : Type :=
| Ok (a : A)
| Err (e : E)
| Panic
| OutOfFuel.
Arguments Ok {E A} a.
Arguments Err {E A} e.
Arguments Panic {E A}.
Arguments OutOfFuel {E A}.

Definition res_map {E A B} (f : A -> B) (r : res E A) : res E B :=
  match r with Ok a => Ok (f a) | Err e => Err e | Panic => Panic | OutOfFuel => OutOfFuel end.

(** [b as uN] and [n as u8]. *)
Definition b2n (b : byte) : N := Byte.to_N b.
Definition n2b (n : N) : byte :=
  match Byte.of_N (n mod 256)%N with Some b => b | None => x00 end.

Definition byte_eqb (a b : byte) : bool := N.eqb (b2n a) (b2n b).

Fixpoint str_eqb (a b : str) : bool :=
  match a, b with
  | [], [] => true
  | x :: a', y :: b' => byte_eqb x y && str_eqb a' b'
  | _, _ => false
  end.

(** Rust [str::starts_with] / [slice::starts_with]. *)
Fixpoint starts_with (pre s : str) : bool :=
  match pre, s with
  | [], _ => true
  | p :: pre', c :: s' => byte_eqb p c && starts_with pre' s'
  | _ :: _, [] => false
  end.

(** Rust [u8::to_ascii_lowercase], [str::to_ascii_lowercase], [str::eq_ignore_ascii_case]. *)
Definition is_upper (b : byte) : bool := ((65 <=? b2n b) && (b2n b <=? 90))%N.
Definition lower (b : byte) : byte := if is_upper b then n2b (b2n b + 32) else b.
Definition to_lower (s : str) : str := map lower s.
Definition eq_ignore_case (a b : str) : bool := str_eqb (to_lower a) (to_lower b).

(** Rust [str::contains(&str)]. *)
Fixpoint contains (pat s : str) : bool :=
  starts_with pat s ||
  match s with [] => false | _ :: s' => contains pat s' end.

(** Rust [str::split(char)] for an ASCII separator: always at least one piece. *)
Fixpoint split_on (c : byte) (s : str) : list str :=
  match s with
  | [] => [[]]
  | x :: s' =>
      if byte_eqb x c then [] :: split_on c s'
      else match split_on c s' with
           | [] => [[x]]
           | p :: ps => (x :: p) :: ps
           end
  end.

Global Arguments b2n : simpl never.
Global Arguments n2b : simpl never.
Global Arguments byte_eqb : simpl never.
Global Arguments lower : simpl never.
Global Arguments N.add : simpl never.
Global Arguments N.sub : simpl never.
Global Arguments N.mul : simpl never.
Global Arguments N.div : simpl never.
Global Arguments N.modulo : simpl never.
Global Arguments N.eqb : simpl never.
Global Arguments N.ltb : simpl never.
Global Arguments N.leb : simpl never.
Global Arguments N.pow : simpl never.

(* ------------------------------------------------------------------ *)
(** ** Lemmas *)

Lemma b2n_lt b : (b2n b < 256)%N.
Proof. unfold b2n. pose proof (Byte.to_N_bounded b). lia. Qed.

Lemma n2b_b2n b : n2b (b2n b) = b.
Proof.
  unfold n2b, b2n. rewrite N.mod_small by apply b2n_lt.
  now rewrite Byte.of_to_N.
Qed.

Lemma b2n_n2b n : b2n (n2b n) = (n mod 256)%N.
Proof.
  unfold n2b, b2n. destruct (Byte.of_N (n mod 256)) as [b|] eqn:H.
  - now apply Byte.to_of_N.
  - exfalso. apply Byte.of_N_None_iff in H.
    pose proof (N.mod_upper_bound n 256). lia.
Qed.

Lemma b2n_inj a b : b2n a = b2n b -> a = b.
Proof. intros H. rewrite <- (n2b_b2n a), <- (n2b_b2n b). now rewrite H. Qed.

Lemma byte_eqb_eq a b : byte_eqb a b = true <-> a = b.
Proof.
  unfold byte_eqb. rewrite N.eqb_eq. split; [apply b2n_inj | now intros ->].
Qed.

Lemma byte_eqb_refl a : byte_eqb a a = true.
Proof. now apply byte_eqb_eq. Qed.

Lemma byte_eqb_neq a b : byte_eqb a b = false <-> a <> b.
Proof.
  split.
  - intros H E. apply byte_eqb_eq in E. congruence.
  - intros H. destruct (byte_eqb a b) eqn:E; auto. apply byte_eqb_eq in E. contradiction.
Qed.

Lemma byte_dec (a b : byte) : {a = b} + {a <> b}.
Proof.
  destruct (byte_eqb a b) eqn:H; [left; now apply byte_eqb_eq | right; now apply byte_eqb_neq].
Defined.

Lemma str_eqb_eq a b : str_eqb a b = true <-> a = b.
Proof.
  revert b. induction a as [|x a IH]; intros [|y b]; simpl; split; intros H; try easy.
  - apply andb_true_iff in H as [H1 H2]. apply byte_eqb_eq in H1. apply IH in H2. congruence.
  - injection H as -> ->. rewrite byte_eqb_refl. now apply IH.
Qed.

Lemma str_eqb_refl a : str_eqb a a = true.
Proof. now apply str_eqb_eq. Qed.

Lemma str_eqb_neq a b : str_eqb a b = false <-> a <> b.
Proof.
  split.
  - intros H E. apply str_eqb_eq in E. congruence.
  - intros H. destruct (str_eqb a b) eqn:E; auto. apply str_eqb_eq in E. contradiction.
Qed.

Lemma str_dec (a b : str) : {a = b} + {a <> b}.
Proof.
  destruct (str_eqb a b) eqn:H; [left; now apply str_eqb_eq | right; now apply str_eqb_neq].
Defined.

Lemma str_eqb_sym a b : str_eqb a b = str_eqb b a.
Proof.
  destruct (str_eqb a b) eqn:H.
  - apply str_eqb_eq in H as ->. now rewrite str_eqb_refl.
  - symmetry. apply str_eqb_neq. apply str_eqb_neq in H. congruence.
Qed.

Lemma starts_with_spec pre s : starts_with pre s = true <-> exists t, s = pre ++ t.
Proof.
  revert s. induction pre as [|p pre IH]; intros s; simpl.
  - split; [intros _; now exists s | auto].
  - destruct s as [|c s].
    + split; [discriminate | intros [t Ht]; discriminate].
    + rewrite andb_true_iff, byte_eqb_eq, IH. split.
      * intros [-> [t ->]]. now exists t.
      * intros [t Ht]. injection Ht as -> ->. split; auto. now exists t.
Qed.

Lemma contains_spec pat s : contains pat s = true <-> exists u v, s = u ++ pat ++ v.
Proof.
  induction s as [|c s IH].
  - simpl. rewrite orb_false_r, starts_with_spec. split.
    + intros [t Ht]. exists [], t. exact Ht.
    + intros (u & v & H). destruct u; [|discriminate]. now exists v.
  - cbn [contains]. rewrite orb_true_iff, starts_with_spec, IH. split.
    + intros [[t Ht] | (u & v & ->)].
      * exists [], t. exact Ht.
      * now exists (c :: u), v.
    + intros (u & v & H). destruct u as [|x u].
      * left. now exists v.
      * right. injection H as -> ->. now exists u, v.
Qed.

(** A finite sweep over all bytes. *)
Definition all_bytes : list byte := map (fun n => n2b (N.of_nat n)) (seq 0 256).

Lemma all_bytes_complete b : In b all_bytes.
Proof.
  unfold all_bytes. apply in_map_iff. exists (N.to_nat (b2n b)). split.
  - rewrite N2Nat.id. apply n2b_b2n.
  - apply in_seq. pose proof (b2n_lt b). lia.
Qed.

Lemma byte_sweep (P : byte -> bool) : forallb P all_bytes = true -> forall b, P b = true.
Proof. intros H b. rewrite forallb_forall in H. apply H, all_bytes_complete. Qed.

Lemma lower_idem b : lower (lower b) = lower b.
Proof.
  apply byte_eqb_eq. revert b.
  apply (byte_sweep (fun b => byte_eqb (lower (lower b)) (lower b))). vm_compute. reflexivity.
Qed.

Lemma to_lower_idem s : to_lower (to_lower s) = to_lower s.
Proof. unfold to_lower. rewrite map_map. apply map_ext. apply lower_idem. Qed.

Lemma eq_ignore_case_spec a b : eq_ignore_case a b = true <-> to_lower a = to_lower b.
Proof. unfold eq_ignore_case. apply str_eqb_eq. Qed.

Lemma eq_ignore_case_refl a : eq_ignore_case a a = true.
Proof. now apply eq_ignore_case_spec. Qed.

Lemma split_on_nil c s : split_on c s <> [].
Proof.
  destruct s as [|x s]; simpl; [easy|].
  destruct (byte_eqb x c); [easy|]. now destruct (split_on c s).
Qed.

(** Splitting and joining. *)
Fixpoint join (c : byte) (ps : list str) : str :=
  match ps with
  | [] => []
  | [p] => p
  | p :: ps' => p ++ c :: join c ps'
  end.

Lemma join_split c s : join c (split_on c s) = s.
Proof.
  induction s as [|x s IH]; [reflexivity|]. cbn [split_on].
  destruct (byte_eqb x c) eqn:Hx.
  - apply byte_eqb_eq in Hx as ->.
    destruct (split_on c s) eqn:Hs; [now apply split_on_nil in Hs|].
    cbn [join app]. cbn [join] in IH. now rewrite IH.
  - destruct (split_on c s) as [|p ps] eqn:Hs; [now apply split_on_nil in Hs|].
    destruct ps as [|q ps]; cbn [join] in *.
    + cbn in IH. now subst.
    + rewrite <- IH. reflexivity.
Qed.

Lemma split_on_no_sep c s : Forall (fun p => ~ In c p) (split_on c s).
Proof.
  induction s as [|x s IH]; cbn [split_on]; [repeat constructor; auto|].
  destruct (byte_eqb x c) eqn:Hx; [constructor; auto|].
  apply byte_eqb_neq in Hx.
  destruct (split_on c s) as [|p ps]; inversion IH as [|p' ps' Hp Hps]; subst.
  - repeat constructor. simpl. intuition.
  - constructor; auto. simpl. intuition.
Qed.

Lemma split_on_plain c s : ~ In c s -> split_on c s = [s].
Proof.
  induction s as [|x s IH]; intros H; [reflexivity|]. cbn [split_on].
  destruct (byte_eqb x c) eqn:Hx.
  - apply byte_eqb_eq in Hx as ->. exfalso. apply H. now left.
  - rewrite IH; [reflexivity|]. intros Hin. apply H. now right.
Qed.

Lemma split_on_app c a b : ~ In c a -> split_on c (a ++ c :: b) = a :: split_on c b.
Proof.
  induction a as [|x a IH]; intros H; cbn [split_on app].
  - now rewrite byte_eqb_refl.
  - destruct (byte_eqb x c) eqn:Hx.
    + apply byte_eqb_eq in Hx as ->. exfalso. apply H. now left.
    + rewrite IH; [reflexivity|]. intros Hin. apply H. now right.
Qed.

Lemma skipn_skipn_add {A} (n m : nat) (l : list A) : skipn n (skipn m l) = skipn (m + n) l.
Proof.
  revert l. induction m as [|m IH]; intros l; [reflexivity|].
  destruct l as [|x l]; simpl; [now rewrite skipn_nil | apply IH].
Qed.

Lemma firstn_add {A} (n m : nat) (l : list A) :
  firstn (n + m) l = firstn n l ++ firstn m (skipn n l).
Proof.
  revert l. induction n as [|n IH]; intros l; [reflexivity|].
  destruct l as [|x l]; simpl; [now rewrite firstn_nil | now rewrite IH].
Qed.
