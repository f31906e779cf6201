(** Executable SHA-1 (FIPS 180-4) and Base64 (RFC 4648): what the crates `sha1` and `base64` compute.
    These crates are not part of /repo. The theorems about the handshake hold for every digest function
    with 20-byte results; [sha1] below shows there is one and reproduces the RFC 6455 test vector. *)
From Verif Require Import Base.
Ltac Zify.zify_post_hook ::= Z.div_mod_to_equations.

(* ------------------------------------------------------------------ *)
(** ** SHA-1 *)
Open Scope N_scope.
Definition w32 (x : N) : N := x mod 2 ^ 32.
Definition rotl (n x : N) : N := N.lor (w32 (N.shiftl x n)) (N.shiftr x (32 - n)).
Definition not32 (x : N) : N := N.lxor x (2 ^ 32 - 1).
Definition add32 (a b : N) : N := w32 (a + b).

Fixpoint be_bytes (n : nat) (x : N) : str :=
  match n with O => [] | S k => be_bytes k (x / 256) ++ [n2b x] end.
Definition word_of (s : str) : N := fold_left (fun a b => a * 256 + b2n b) s 0.

Definition sha_pad (s : str) : str :=
  s ++ [x80] ++ repeat x00 ((119 - length s mod 64) mod 64) ++ be_bytes 8 (8 * N.of_nat (length s)).
Fixpoint words (n : nat) (s : str) : list N :=
  match n with O => [] | S k => word_of (firstn 4 s) :: words k (skipn 4 s) end.
(** The schedule, newest word first. *)
Fixpoint schedule (n : nat) (w : list N) : list N :=
  match n with
  | O => w
  | S k => schedule k (rotl 1 (N.lxor (N.lxor (nth 2 w 0) (nth 7 w 0)) (N.lxor (nth 13 w 0) (nth 15 w 0))) :: w)
  end.
Definition f_k (t : nat) (b c d : N) : N * N :=
  if Nat.ltb t 20 then (N.lxor (N.land b c) (N.land (not32 b) d), 0x5a827999)
  else if Nat.ltb t 40 then (N.lxor (N.lxor b c) d, 0x6ed9eba1)
  else if Nat.ltb t 60 then (N.lxor (N.lxor (N.land b c) (N.land b d)) (N.land c d), 0x8f1bbcdc)
  else (N.lxor (N.lxor b c) d, 0xca62c1d6).
Definition sha_state := (N * N * N * N * N)%type.
Fixpoint rounds (t : nat) (ws : list N) (st : sha_state) : sha_state :=
  match ws with
  | [] => st
  | w :: ws' =>
      let '(a, b, c, d, e) := st in
      let '(f, k) := f_k t b c d in
      rounds (S t) ws' (add32 (add32 (add32 (rotl 5 a) f) (add32 e w)) k, a, rotl 30 b, c, d)
  end.
Definition block (st : sha_state) (s : str) : sha_state :=
  let '(a, b, c, d, e) := st in
  let '(a', b', c', d', e') := rounds 0 (rev (schedule 64 (rev (words 16 s)))) st in
  (add32 a a', add32 b b', add32 c c', add32 d d', add32 e e').
Fixpoint blocks (n : nat) (st : sha_state) (s : str) : sha_state :=
  match n with O => st | S k => blocks k (block st (firstn 64 s)) (skipn 64 s) end.
Definition sha1 (s : str) : str :=
  let p := sha_pad s in
  let '(a, b, c, d, e) := blocks (length p / 64)
    (0x67452301, 0xefcdab89, 0x98badcfe, 0x10325476, 0xc3d2e1f0) p in
  be_bytes 4 a ++ be_bytes 4 b ++ be_bytes 4 c ++ be_bytes 4 d ++ be_bytes 4 e.

Lemma be_bytes_length n x : length (be_bytes n x) = n.
Proof. revert x. induction n as [|n IH]; intros x; cbn [be_bytes]; [reflexivity|]. rewrite app_length, IH. cbn. lia. Qed.
Lemma sha1_length s : length (sha1 s) = 20%nat.
Proof.
  unfold sha1. destruct (blocks _ _ _) as [[[[a b] c] d] e]. rewrite !app_length, !be_bytes_length. reflexivity.
Qed.
(** FIPS 180 examples "abc" and the two-block message. *)
Example sha1_abc : sha1 (bs "abc") = be_bytes 20 0xa9993e364706816aba3e25717850c26c9cd0d89d.
Proof. vm_compute. reflexivity. Qed.
Example sha1_two_blocks : sha1 (bs "abcdbcdecdefdefgefghfghighijhijkijkljklmklmnlmnomnopnopq") =
  be_bytes 20 0x84983e441c3bd26ebaae4aa1f95129e5e54670f1.
Proof. vm_compute. reflexivity. Qed.
Close Scope N_scope.

(* ------------------------------------------------------------------ *)
(** ** Base64 *)
Definition b64_alphabet : str := bs "ABCDEFGHIJKLMNOPQRSTUVWXYZabcdefghijklmnopqrstuvwxyz0123456789+/".
Definition b64_char (n : N) : byte := nth (N.to_nat n) b64_alphabet x41.
(** The crate's [encode] (standard alphabet, padding). *)
Fixpoint base64 (s : str) : str :=
  match s with
  | a :: b :: c :: s' =>
      b64_char (b2n a / 4) :: b64_char ((b2n a mod 4) * 16 + b2n b / 16)
        :: b64_char ((b2n b mod 16) * 4 + b2n c / 64) :: b64_char (b2n c mod 64) :: base64 s'
  | [a; b] => [b64_char (b2n a / 4); b64_char ((b2n a mod 4) * 16 + b2n b / 16); b64_char ((b2n b mod 16) * 4); x3d]
  | [a] => [b64_char (b2n a / 4); b64_char ((b2n a mod 4) * 16); x3d; x3d]
  | [] => []
  end%N.

(** Specification: the decoder of RFC 4648 section 4. A character stands for its position in the
    alphabet; four characters are 24 bits; "=" marks missing final bytes. *)
Fixpoint position (c : byte) (l : str) : option N :=
  match l with
  | [] => None
  | x :: l' => if byte_eqb x c then Some 0%N else option_map N.succ (position c l')
  end.
Definition sextet (c : byte) : option N := position c b64_alphabet.
Fixpoint base64_decode (s : str) : option str :=
  match s with
  | [] => Some []
  | c0 :: c1 :: c2 :: c3 :: s' =>
      match sextet c0, sextet c1, sextet c2, sextet c3 with
      | Some i0, Some i1, Some i2, Some i3 =>
          let v := (((i0 * 64 + i1) * 64 + i2) * 64 + i3) in
          option_map (fun r => n2b (v / 65536) :: n2b ((v / 256) mod 256) :: n2b (v mod 256) :: r) (base64_decode s')
      | Some i0, Some i1, Some i2, None =>
          if str_eqb (c3 :: s') (bs "=")
          then let v := ((i0 * 64 + i1) * 64 + i2) / 4 in Some [n2b (v / 256); n2b (v mod 256)] else None
      | Some i0, Some i1, None, None =>
          if str_eqb (c2 :: c3 :: s') (bs "==") then Some [n2b ((i0 * 64 + i1) / 16)] else None
      | _, _, _, _ => None
      end
  | _ => None
  end%N.

Lemma sextet_char n : (n < 64)%N -> sextet (b64_char n) = Some n /\ b64_char n <> x3d.
Proof.
  intros H.
  assert (forallb (fun k => match sextet (b64_char (N.of_nat k)) with Some m => N.eqb m (N.of_nat k) | None => false end && negb (byte_eqb (b64_char (N.of_nat k)) x3d)) (seq 0 64) = true) as F by (vm_compute; reflexivity).
  rewrite forallb_forall in F. specialize (F (N.to_nat n)). rewrite N2Nat.id in F.
  assert (In (N.to_nat n) (seq 0 64)) as Hin by (apply in_seq; lia). apply F in Hin. apply andb_true_iff in Hin as [H1 H2].
  split.
  - destruct (sextet (b64_char n)) as [m|]; [|discriminate]. apply N.eqb_eq in H1. now subst.
  - apply negb_true_iff in H2. intros E. rewrite E in H2. discriminate.
Qed.

Lemma n2b_of x b : x = b2n b -> n2b x = b.
Proof. intros ->. apply n2b_b2n. Qed.

Lemma list3_ind (P : str -> Prop) : P [] -> (forall a, P [a]) -> (forall a b, P [a; b]) ->
  (forall a b c s, P s -> P (a :: b :: c :: s)) -> forall s, P s.
Proof.
  intros H0 H1 H2 H3. fix IH 1. intros [|a [|b [|c s]]]; [exact H0|apply H1|apply H2|apply H3, IH].
Qed.

Lemma base64_decode_encode s : base64_decode (base64 s) = Some s.
Proof.
  induction s as [|a|a b|a b c s IH] using list3_ind.
  - reflexivity.
  - pose proof (b2n_lt a) as Ha. cbn [base64].
    destruct (sextet_char (b2n a / 4)) as [E0 _]; [lia|]. destruct (sextet_char ((b2n a mod 4) * 16)) as [E1 _]; [lia|].
    cbn [base64_decode]. rewrite E0, E1. change (sextet x3d) with (@None N). cbv iota. change (str_eqb [x3d; x3d] (bs "==")) with true. cbv iota. do 2 f_equal. apply n2b_of. lia.
  - pose proof (b2n_lt a) as Ha. pose proof (b2n_lt b) as Hb. cbn [base64].
    destruct (sextet_char (b2n a / 4)) as [E0 _]; [lia|]. destruct (sextet_char ((b2n a mod 4) * 16 + b2n b / 16)) as [E1 _]; [lia|].
    destruct (sextet_char ((b2n b mod 16) * 4)) as [E2 _]; [lia|].
    cbn [base64_decode]. rewrite E0, E1, E2. change (sextet x3d) with (@None N). cbn zeta. cbv iota. change (str_eqb [x3d] (bs "=")) with true. cbv iota. f_equal. f_equal; [|f_equal]; apply n2b_of; lia.
  - pose proof (b2n_lt a) as Ha. pose proof (b2n_lt b) as Hb. pose proof (b2n_lt c) as Hc. cbn [base64].
    destruct (sextet_char (b2n a / 4)) as [E0 _]; [lia|]. destruct (sextet_char ((b2n a mod 4) * 16 + b2n b / 16)) as [E1 _]; [lia|].
    destruct (sextet_char ((b2n b mod 16) * 4 + b2n c / 64)) as [E2 _]; [lia|]. destruct (sextet_char (b2n c mod 64)) as [E3 _]; [lia|].
    cbn [base64_decode]. rewrite E0, E1, E2, E3, IH. cbn zeta. cbn [option_map].
    f_equal. f_equal; [|f_equal; [|f_equal]]; apply n2b_of; lia.
Qed.
Lemma base64_length s : length (base64 s) = 4 * ((length s + 2) / 3).
Proof.
  induction s as [|a|a b|a b c s IH] using list3_ind; try reflexivity. cbn [base64 length]. rewrite IH. lia.
Qed.
