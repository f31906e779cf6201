(** Proofs about the WebSocket frame and message codec. *)
From Verif Require Import Base Io IoProofs Utf8 WsModel WsSpec WsBridge.
Ltac Zify.zify_post_hook ::= Z.div_mod_to_equations.

(* ------------------------------------------------------------------ *)
(** ** Bits and bytes *)

Lemma bits_byte a :
  bit_set a 128 = (128 <=? b2n a)%N /\
  bit_set a 64 = N.testbit ((b2n a / 16) mod 8) 2 /\
  bit_set a 32 = N.testbit ((b2n a / 16) mod 8) 1 /\
  bit_set a 16 = N.testbit ((b2n a / 16) mod 8) 0 /\
  N.land (b2n a) 15 = (b2n a mod 16)%N /\ N.land (b2n a) 127 = (b2n a mod 128)%N.
Proof.
  pose (P := fun a => (Bool.eqb (bit_set a 128) (128 <=? b2n a)%N
    && Bool.eqb (bit_set a 64) (N.testbit ((b2n a / 16) mod 8) 2)
    && Bool.eqb (bit_set a 32) (N.testbit ((b2n a / 16) mod 8) 1)
    && Bool.eqb (bit_set a 16) (N.testbit ((b2n a / 16) mod 8) 0)
    && N.eqb (N.land (b2n a) 15) (b2n a mod 16) && N.eqb (N.land (b2n a) 127) (b2n a mod 128))%bool).
  assert (P a = true) as H by (apply byte_sweep; vm_compute; reflexivity).
  unfold P in H. rewrite !andb_true_iff, !eqb_true_iff, !N.eqb_eq in H. tauto.
Qed.

Lemma opcode_of_named n : (n < 16)%N -> opcode_of n = Some (opcode_named n).
Proof.
  intros H. assert (n = 0 \/ n = 1 \/ n = 2 \/ n = 3 \/ n = 4 \/ n = 5 \/ n = 6 \/ n = 7 \/ n = 8 \/ n = 9 \/
    n = 10 \/ n = 11 \/ n = 12 \/ n = 13 \/ n = 14 \/ n = 15)%N as E by lia.
  repeat (destruct E as [->|E]; [reflexivity|]). subst. reflexivity.
Qed.

Lemma first_byte fin rsv op : (rsv < 8)%N -> (op < 16)%N ->
  let a := n2b (flag fin 128 + rsv * 16 + op) in
  bit_set a 128 = fin /\ bit_set a 64 = N.testbit rsv 2 /\ bit_set a 32 = N.testbit rsv 1 /\
  bit_set a 16 = N.testbit rsv 0 /\ N.land (b2n a) 15 = op.
Proof.
  intros Hr Ho a. assert (b2n a = flag fin 128 + rsv * 16 + op)%N as Ha.
  { unfold a. rewrite b2n_n2b. apply N.mod_small. unfold flag. destruct fin; lia. }
  destruct (bits_byte a) as (-> & -> & -> & -> & -> & _). rewrite Ha.
  assert (((flag fin 128 + rsv * 16 + op) / 16) mod 8 = rsv)%N as ->.
  { unfold flag. destruct fin; lia. }
  assert ((flag fin 128 + rsv * 16 + op) mod 16 = op)%N as -> by (unfold flag; destruct fin; lia).
  repeat split. unfold flag. destruct fin; lia.
Qed.

Lemma second_byte masked fld : (fld < 128)%N ->
  let b := n2b (flag masked 128 + fld) in
  bit_set b 128 = masked /\ N.land (b2n b) 127 = fld.
Proof.
  intros Hf b. assert (b2n b = flag masked 128 + fld)%N as Hb.
  { unfold b. rewrite b2n_n2b. apply N.mod_small. unfold flag. destruct masked; lia. }
  destruct (bits_byte b) as (-> & _ & _ & _ & _ & ->). rewrite Hb. unfold flag. destruct masked; lia.
Qed.

Lemma net_value_lt d : (net_value d < 256 ^ N.of_nat (length d))%N.
Proof.
  induction d as [|c d IH]; cbn [net_value length]; [lia|]. pose proof (b2n_lt c).
  rewrite Nat2N.inj_succ, N.pow_succ_r'. nia.
Qed.

Lemma read_be_acc d a :
  fold_left (fun a c => (a * 256 + b2n c)%N) d a = (a * 256 ^ N.of_nat (length d) + net_value d)%N.
Proof.
  revert a. induction d as [|c d IH]; intros a; cbn [fold_left net_value length].
  - cbn. lia.
  - rewrite IH, Nat2N.inj_succ, N.pow_succ_r'. lia.
Qed.

Lemma read_be_value d : read_be d = net_value d.
Proof. unfold read_be. rewrite read_be_acc. lia. Qed.

Lemma net_bytes_length k n : length (net_bytes k n) = k.
Proof. induction k as [|k IH]; simpl; auto. Qed.

Lemma net_value_bytes k n : net_value (net_bytes k n) = (n mod 256 ^ N.of_nat k)%N.
Proof.
  induction k as [|k IH]; cbn [net_bytes net_value].
  - change (256 ^ N.of_nat 0)%N with 1%N. now rewrite N.mod_1_r.
  - rewrite net_bytes_length, IH, b2n_n2b, Nat2N.inj_succ, N.pow_succ_r'.
    rewrite (N.mul_comm 256), N.mod_mul_r by (try apply N.pow_nonzero; lia). lia.
Qed.

Lemma write_be_bytes k n : write_be k n = net_bytes k n.
Proof.
  induction k as [|k IH]; simpl; [reflexivity|]. rewrite IH. f_equal. f_equal.
  rewrite N.shiftr_div_pow2. f_equal. change 256%N with (2 ^ 8)%N. now rewrite <- N.pow_mul_r.
Qed.

Lemma lxor_byte a b : (N.lxor (b2n a) (b2n b) < 256)%N.
Proof.
  change 256%N with (2 ^ 8)%N. destruct (N.eq_dec (N.lxor (b2n a) (b2n b)) 0) as [->|Hne]; [reflexivity|].
  apply N.log2_lt_pow2; [lia|]. eapply N.le_lt_trans; [apply N.log2_lxor|].
  pose proof (b2n_lt a). pose proof (b2n_lt b).
  destruct (N.eq_dec (b2n a) 0) as [->|Ha]; destruct (N.eq_dec (b2n b) 0) as [->|Hb].
  - reflexivity.
  - apply N.max_lub_lt; [reflexivity|]. apply N.log2_lt_pow2; lia.
  - apply N.max_lub_lt; [|reflexivity]. apply N.log2_lt_pow2; lia.
  - apply N.max_lub_lt; apply N.log2_lt_pow2; lia.
Qed.

Lemma xor_twice c k : n2b (N.lxor (b2n (n2b (N.lxor (b2n c) (b2n k)))) (b2n k)) = c.
Proof.
  rewrite b2n_n2b, N.mod_small by apply lxor_byte.
  now rewrite N.lxor_assoc, N.lxor_nilpotent, N.lxor_0_r, n2b_b2n.
Qed.

Definition xor_from (key : str) (i : nat) (d : str) : str :=
  map (fun ic => n2b (N.lxor (b2n (snd ic)) (b2n (nth (fst ic mod 4) key x00))))
      (combine (seq i (length d)) d).

Lemma xor_from_cons key i c d : xor_from key i (c :: d) =
  n2b (N.lxor (b2n c) (b2n (nth (i mod 4) key x00))) :: xor_from key (S i) d.
Proof. reflexivity. Qed.

Lemma xor_from_length key i d : length (xor_from key i d) = length d.
Proof. unfold xor_from. rewrite map_length, combine_length, seq_length. apply Nat.min_id. Qed.
Lemma xor_key_length key d : length (xor_key key d) = length d.
Proof. apply xor_from_length. Qed.

Lemma xor_from_twice key i d : xor_from key i (xor_from key i d) = d.
Proof.
  revert i. induction d as [|c d IH]; intros i; [reflexivity|].
  rewrite !xor_from_cons, IH, xor_twice. reflexivity.
Qed.
Lemma xor_key_twice key d : xor_key key (xor_key key d) = d.
Proof. apply (xor_from_twice key 0). Qed.

Lemma unmask_xor k0 k1 k2 k3 i d : unmask (k0, k1, k2, k3) i d = xor_from [k0; k1; k2; k3] i d.
Proof.
  revert i. induction d as [|c d IH]; intros i; [reflexivity|].
  rewrite xor_from_cons, <- IH. cbn [unmask]. do 4 f_equal.
  assert (i mod 4 < 4) as H by (apply Nat.mod_upper_bound; lia).
  destruct (i mod 4) as [|[|[|[|x]]]]; try reflexivity. lia.
Qed.

(* ------------------------------------------------------------------ *)
(** ** Parsing a well delivered frame *)

Definition after_head (m : machine) (fin : bool) (r1 r2 r3 : bool) (op : opcode) (masked : bool) (len : N)
           (b2 : bufreader) : res pf_err frame * stream :=
  if (N.ltb 0 len && negb masked)%bool then (Err MaskNotSet, br_in b2)
  else if N.ltb 0 len then
    match read_payload m fin len b2 with
    | (Ok d, b3) => (Ok (Frame fin r1 r2 r3 op d), br_in b3)
    | (Err e, b3) => (Err e, br_in b3)
    | (Panic, b3) => (Panic, br_in b3)
    | (OutOfFuel, b3) => (OutOfFuel, br_in b3)
    end
  else (Ok (Frame fin r1 r2 r3 op []), br_in b2).

Lemma frame_cap_big : 14 <= frame_cap.
Proof. apply Nat.leb_le. vm_compute. reflexivity. Qed.

Lemma form_ext_length fm n : length (form_ext fm n) = form_len fm.
Proof. destruct fm; simpl; rewrite ?net_bytes_length; reflexivity. Qed.

Lemma form_field_lt fm n : form_fits fm n -> (form_field fm n < 128)%N.
Proof. destruct fm; simpl; lia. Qed.

Lemma read_length_track fm n masked b cs rest tail off :
  form_fits fm n -> br_cap b = frame_cap ->
  br_in b = map Data cs ++ rest -> Forall (fun c => c <> []) cs ->
  br_buf b ++ concat cs = form_ext fm n ++ tail ->
  exists buf' cs',
    read_length (n2b (flag masked 128 + form_field fm n)) b = (Ok n, BR buf' frame_cap (map Data cs' ++ rest)) /\
    Forall (fun c => c <> []) cs' /\ buf' ++ concat cs' = tail /\
    (forall p, off + form_len fm <= p < off + frame_cap ->
       (cut off (br_buf b) cs p <-> cut (off + form_len fm) buf' cs' p)).
Proof.
  intros Hfit Hcap Hin Hne Hsp. pose proof frame_cap_big as Hbig.
  unfold read_length. destruct (second_byte masked (form_field fm n) (form_field_lt fm n Hfit)) as [_ ->].
  assert (forall k, k < 9 -> form_len fm = k -> (n < 256 ^ N.of_nat k)%N -> form_ext fm n = net_bytes k n ->
    exists buf' cs',
    match read_exact k b with
    | (Ok d, b') => (Ok (read_be d), b')
    | (Err e, b') => (Err e, b') | (Panic, b') => (Panic, b') | (OutOfFuel, b') => (OutOfFuel, b')
    end = (Ok n, BR buf' frame_cap (map Data cs' ++ rest)) /\
    Forall (fun c => c <> []) cs' /\ buf' ++ concat cs' = tail /\
    (forall p, off + form_len fm <= p < off + frame_cap ->
       (cut off (br_buf b) cs p <-> cut (off + form_len fm) buf' cs' p))) as K.
  { intros k Hk Hlen Hn Hext.
    destruct (read_exact_track k b cs rest off Hin Hne) as (d & buf' & cs' & -> & Hl & Hne' & Hs & Hcut).
    - rewrite Hsp, app_length, form_ext_length. lia.
    - lia.
    - rewrite Hsp, Hext in Hs.
      assert (d = net_bytes k n /\ buf' ++ concat cs' = tail) as [-> Ht].
      { clear -Hs Hl. assert (length (net_bytes k n) = length d) as E by (rewrite net_bytes_length; auto).
        revert Hs E. generalize (net_bytes k n) as e. revert d Hl. intros d _ e. revert d.
        induction e as [|x e IH]; intros [|y d] H E; try discriminate; [auto|].
        injection H as <- H. injection E as E. destruct (IH d H E) as [-> ->]. auto. }
      exists buf', cs'. rewrite Hcap in *. rewrite read_be_value, net_value_bytes, N.mod_small by assumption.
      rewrite Hlen. repeat split; auto; apply Hcut; auto. }
  destruct fm; cbn [form_field form_len] in *.
  - assert (N.eqb n 126 = false) as -> by (simpl in Hfit; lia).
    assert (N.eqb n 127 = false) as -> by (simpl in Hfit; lia).
    exists (br_buf b), cs. rewrite <- Hin, <- Hcap. split; [destruct b; reflexivity|].
    rewrite Nat.add_0_r. repeat split; auto.
  - exact (K 2 ltac:(lia) eq_refl Hfit eq_refl).
  - apply (K 8); try reflexivity; [lia|]. simpl in Hfit. cbn. lia.
Qed.

(** The header is read however it is cut, except between its first two bytes. *)
Lemma parse_head m fm fin rsv op masked n tail cs rest :
  (rsv < 8)%N -> (op < 16)%N -> form_fits fm n ->
  segments cs (rfc_head fm fin rsv op masked n ++ tail) -> ~ cut_at cs 1 ->
  exists buf cs',
    Forall (fun c => c <> []) cs' /\ buf ++ concat cs' = tail /\
    (forall p, head_len fm <= p < frame_cap -> (cut_at cs p <-> cut (head_len fm) buf cs' p)) /\
    frame_parse m (map Data cs ++ rest) =
    after_head m fin (N.testbit rsv 2) (N.testbit rsv 1) (N.testbit rsv 0) (opcode_named op) masked n
      (BR buf frame_cap (map Data cs' ++ rest)).
Proof.
  intros Hr Ho Hfit [Hne Hcs] Hcut1. pose proof frame_cap_big as Hbig.
  assert (forall p, cut 0 [] cs p <-> cut_at cs p) as Hca.
  { intros p. unfold cut, cut_at. simpl. split; intros (c1 & c2 & E & H); exists c1, c2; auto. }
  destruct (br_read_track 2 (BR [] frame_cap (map Data cs ++ rest)) cs rest 0 eq_refl Hne)
    as (d & buf1 & cs1 & E & Hd & Hl & Hne1 & Hsp & Hcut & Hshort); cbn [br_buf br_cap br_in] in *.
  { rewrite Hcs. discriminate. }
  { lia. }
  assert (length d = 2) as Hd2.
  { destruct (Nat.eq_dec (length d) 2); [auto|]. exfalso. apply Hcut1. apply Hca.
    replace 1 with (0 + length d) by (destruct d; [congruence|simpl in *; lia]). apply Hshort. lia. }
  destruct d as [|a [|b [|]]]; try discriminate.
  simpl in Hsp. rewrite Hcs in Hsp. unfold rfc_head in Hsp. simpl in Hsp. injection Hsp as <- <- Hsp.
  destruct (read_length_track fm n masked (BR buf1 frame_cap (map Data cs1 ++ rest)) cs1 rest tail 2
              Hfit eq_refl eq_refl Hne1 (eq_sym Hsp)) as (buf2 & cs2 & E2 & Hne2 & Hsp2 & Hcut2).
  cbn [br_buf] in *.
  exists buf2, cs2. repeat split; auto.
  - intros Hc. unfold head_len in *. apply Hcut2; [lia|]. apply Hcut; [simpl; lia|]. now apply Hca.
  - intros Hc. unfold head_len in *. apply Hca. apply Hcut; [simpl; lia|]. apply Hcut2; [lia|]. exact Hc.
  - unfold frame_parse. rewrite E.
    destruct (first_byte fin rsv op Hr Ho) as (H1 & H2 & H3 & H4 & H5).
    destruct (second_byte masked (form_field fm n) (form_field_lt fm n Hfit)) as [H6 _].
    rewrite H5, opcode_of_named by assumption. rewrite E2, H1, H2, H3, H4, H6. reflexivity.
Qed.

(** A boundary between the first two bytes is fatal. *)
Lemma parse_cut_first m cs rest a tail :
  segments cs (a :: tail) -> cut_at cs 1 -> tail <> [] ->
  exists s', frame_parse m (map Data cs ++ rest) = (Err InsufficientData, s').
Proof.
  intros [Hne Hcs] (c1 & c2 & -> & Hlen) Ht. pose proof frame_cap_big.
  assert (exists c2', c1 ++ c2 = [a] :: c2') as [c2' E].
  { destruct c1 as [|x c1]; [discriminate|]. inversion Hne as [|? ? Hx Hrest]; subst. simpl in Hcs, Hlen.
    rewrite app_length in Hlen. destruct x as [|a' x]; [congruence|]. injection Hcs as -> _.
    destruct x; [|simpl in Hlen; lia]. exists (c1 ++ c2). reflexivity. }
  rewrite E. unfold frame_parse, br_read, br_fill. cbn [br_buf br_cap br_in andb map app raw_read].
  destruct (Nat.leb_spec frame_cap 2); [lia|].
  destruct frame_cap as [|k]; [lia|]. cbn [skipn firstn]. rewrite skipn_nil. cbn [firstn].
  eexists. reflexivity.
Qed.

Definition payload_done (m : machine) (fin : bool) (len : N) (k0 k1 k2 k3 : byte) (b1 : bufreader)
  : res pf_err str * bufreader :=
      if N.ltb (max_alloc m) (as_usize m len) then (Panic, b1)
      else
        match take_to_end (read_sizes m) len b1 with
        | (Ok enc, b2) =>
            let n := N.of_nat (length enc) in
            if N.ltb (max_alloc m) n then (Panic, b2)
            else if negb (N.eqb n (as_usize m len)) then
              if (negb fin && N.ltb n len)%bool then (Err (WaitForNextFrame (len - n)%N), b2)
              else (Err PfIoError, b2)
            else (Ok (unmask (k0, k1, k2, k3) 0 enc), b2)
        | (Err _, b2) => (Err PfIoError, b2)
        | (Panic, b2) => (Panic, b2)
        | (OutOfFuel, b2) => (OutOfFuel, b2)
        end.

Lemma app_same_length {A} (a b c d : list A) : a ++ b = c ++ d -> length a = length c -> a = c /\ b = d.
Proof.
  revert c. induction a as [|x a IH]; intros [|y c] H E; try discriminate; [auto|].
  injection H as <- H. injection E as E. destruct (IH c H E) as [-> ->]. auto.
Qed.

(** The masking key: read whole unless a boundary falls inside it. *)
Lemma read_key m fin len key body cs rest buf hl :
  length key = 4 -> Forall (fun c => c <> []) cs -> buf ++ concat cs = key ++ body ->
  ((forall i, 0 < i < 4 -> ~ cut hl buf cs (hl + i)) ->
   exists k0 k1 k2 k3 buf' cs', key = [k0; k1; k2; k3] /\ Forall (fun c => c <> []) cs' /\ buf' ++ concat cs' = body /\
     read_payload m fin len (BR buf frame_cap (map Data cs ++ rest)) =
     payload_done m fin len k0 k1 k2 k3 (BR buf' frame_cap (map Data cs' ++ rest))) /\
  ((exists i, 0 < i < 4 /\ cut hl buf cs (hl + i)) ->
   exists b', read_payload m fin len (BR buf frame_cap (map Data cs ++ rest)) = (Err InsufficientData, b')).
Proof.
  intros Hk Hne Hsp. pose proof frame_cap_big as Hbig.
  destruct (br_read_track 4 (BR buf frame_cap (map Data cs ++ rest)) cs rest hl eq_refl Hne)
    as (d & buf' & cs' & E & Hd & Hl & Hne' & Hsp' & Hcut & Hshort); cbn [br_buf br_cap br_in] in *.
  { rewrite Hsp. destruct key; discriminate. }
  { lia. }
  unfold read_payload. rewrite E. split.
  - intros Hno. assert (length d = 4) as Hd4.
    { destruct (Nat.eq_dec (length d) 4); [auto|]. exfalso. apply (Hno (length d)); [|apply Hshort; lia].
      destruct d; [congruence|]. simpl in *. lia. }
    rewrite Hsp in Hsp'. apply app_same_length in Hsp' as [Hkey Hbody]; [|lia].
    destruct d as [|k0 [|k1 [|k2 [|k3 [|]]]]]; try discriminate.
    exists k0, k1, k2, k3, buf', cs'. auto.
  - intros (i & Hi & Hc). assert (length d < 4) as Hd4.
    { destruct (Nat.eq_dec (length d) 4) as [E4|]; [|lia]. exfalso.
      (* everything read so far came from before the boundary *)
      destruct Hc as (c1 & c2 & -> & Ec).
      assert (length buf + length (concat c1) = i) as Hi2 by lia.
      clear -E E4 Hi Hi2 Hne Hbig. unfold br_read, br_fill in E. cbn [br_buf br_cap br_in] in E.
      destruct buf as [|x buf].
      - simpl in Hi2. destruct c1 as [|c c1]; [simpl in Hi2; lia|]. cbn [map app raw_read andb] in E.
        destruct (Nat.leb_spec frame_cap 4); [lia|]. cbn [andb] in E.
        assert (length c <= i) by (simpl in Hi2; rewrite app_length in Hi2; lia).
        destruct (skipn frame_cap c) eqn:Es.
        + assert (d = firstn 4 c) as -> by congruence. rewrite firstn_length in E4. lia.
        + apply (f_equal (@length _)) in Es. rewrite skipn_length in Es. simpl in Es. lia.
      - cbn [andb] in E. assert (d = firstn 4 (x :: buf)) as -> by congruence.
        rewrite firstn_length in E4. lia. }
    destruct d as [|k0 [|k1 [|k2 [|k3 [|]]]]]; simpl in Hd4; try lia; try congruence; eexists; reflexivity.
Qed.

Lemma as_usize_small m n : machine_ok m -> (n <= max_alloc m)%N -> as_usize m n = n.
Proof.
  intros (Hw & Ha & _) Hn. unfold as_usize. apply N.mod_small. eapply N.le_lt_trans; [exact Hn|].
  eapply N.lt_le_trans; [exact Ha|]. apply N.pow_le_mono_r; lia.
Qed.

(** The payload, complete. *)
Lemma payload_complete m fin k0 k1 k2 k3 enc buf cs rest :
  machine_ok m -> (N.of_nat (length enc) <= max_alloc m)%N ->
  Forall (fun c => c <> []) cs -> buf ++ concat cs = enc ->
  payload_done m fin (N.of_nat (length enc)) k0 k1 k2 k3 (BR buf frame_cap (map Data cs ++ rest)) =
  (Ok (xor_key [k0; k1; k2; k3] enc), BR [] frame_cap rest).
Proof.
  intros Hm Hlen Hne Hsp. pose proof frame_cap_big. unfold payload_done.
  rewrite as_usize_small by assumption.
  assert (N.ltb (max_alloc m) (N.of_nat (length enc)) = false) as Hlt by lia. rewrite Hlt.
  assert (rep false (BR buf frame_cap (map Data cs ++ rest)) enc rest) as Hrep.
  { exists (concat cs). split; [auto|]. now apply delivers_chunks. }
  destruct (take_to_end_rep false (read_sizes m) (N.of_nat (length enc)) _ enc rest (proj2 (proj2 Hm)) Hrep)
    as (b' & -> & Hr & Hc); [simpl; lia|lia|].
  rewrite Nat2N.id, firstn_all in *. cbv zeta. rewrite Hlt, N.eqb_refl. cbn [negb].
  rewrite skipn_all in Hr. apply rep_false_nil in Hr as [Hb Hi].
  rewrite unmask_xor. destruct b' as [bf cp st]. cbn [br_buf br_in br_cap] in *. subst. reflexivity.
Qed.

(** The connection ends inside the payload. *)
Lemma payload_truncated m fin len k0 k1 k2 k3 enc buf cs :
  machine_ok m -> (len <= max_alloc m)%N -> (N.of_nat (length enc) < len)%N ->
  Forall (fun c => c <> []) cs -> buf ++ concat cs = enc ->
  exists b', payload_done m fin len k0 k1 k2 k3 (BR buf frame_cap (map Data cs)) =
  (Err (if fin then PfIoError else WaitForNextFrame (len - N.of_nat (length enc))), b').
Proof.
  intros Hm Hlen Hshort Hne Hsp. pose proof frame_cap_big. unfold payload_done.
  rewrite as_usize_small by assumption.
  assert (N.ltb (max_alloc m) len = false) as -> by lia.
  assert (rep true (BR buf frame_cap (map Data cs)) enc []) as Hrep.
  { apply rep_mono. exists (concat cs). split; [auto|]. rewrite <- (app_nil_r (map Data cs)). now apply delivers_chunks. }
  destruct (take_to_end_eof (read_sizes m) len _ enc (proj2 (proj2 Hm)) Hrep) as (b' & ->); [simpl; lia|lia|].
  cbv zeta. assert (N.ltb (max_alloc m) (N.of_nat (length enc)) = false) as -> by lia.
  assert (N.eqb (N.of_nat (length enc)) len = false) as -> by lia.
  assert (N.ltb (N.of_nat (length enc)) len = true) as -> by lia.
  exists b'. destruct fin; reflexivity.
Qed.

Lemma rfc_encode_masked fm f k : rf_key f = Some k ->
  rfc_encode fm f =
  rfc_head fm (rf_fin f) (rf_rsv f) (rf_op f) true (N.of_nat (length (rf_payload f))) ++ k ++ xor_key k (rf_payload f).
Proof. intros H. unfold rfc_encode, rfc_header, is_masked. now rewrite H. Qed.

(** A frame with payload, any segmentation: delivered exactly, or refused when cut badly. *)
Lemma parse_nonempty m fm f cs rest :
  machine_ok m -> client_frame m fm f -> rf_payload f <> [] -> segments cs (rfc_encode fm f) ->
  (~ cut_at cs 1 -> (forall i, 0 < i < 4 -> ~ cut_at cs (head_len fm + i)) ->
     frame_parse m (map Data cs ++ rest) = (Ok (frame_view f), rest)) /\
  (cut_at cs 1 \/ (exists i, 0 < i < 4 /\ cut_at cs (head_len fm + i)) ->
     exists s', frame_parse m (map Data cs ++ rest) = (Err InsufficientData, s')).
Proof.
  intros Hm [(Hrsv & Hop & Hfit & Hkey) [Hmask Hlen]] Hne Hcs.
  unfold is_masked in Hmask. destruct (rf_key f) as [k|] eqn:Ek; [|discriminate].
  rewrite (rfc_encode_masked fm f k Ek) in Hcs. pose proof frame_cap_big as Hbig.
  set (n := N.of_nat (length (rf_payload f))) in *.
  assert (0 < n)%N as Hpos by (unfold n; destruct (rf_payload f); [congruence|cbn [length]; lia]).
  assert (head_len fm <= 10) as Hhl by (unfold head_len; destruct fm; simpl; lia).
  assert (~ cut_at cs 1 -> exists buf cs',
    Forall (fun c => c <> []) cs' /\ buf ++ concat cs' = k ++ xor_key k (rf_payload f) /\
    (forall p, head_len fm <= p < frame_cap -> (cut_at cs p <-> cut (head_len fm) buf cs' p)) /\
    frame_parse m (map Data cs ++ rest) =
    match read_payload m (rf_fin f) n (BR buf frame_cap (map Data cs' ++ rest)) with
    | (Ok d, b3) => (Ok (Frame (rf_fin f) (N.testbit (rf_rsv f) 2) (N.testbit (rf_rsv f) 1) (N.testbit (rf_rsv f) 0)
        (opcode_named (rf_op f)) d), br_in b3)
    | (Err e, b3) => (Err e, br_in b3)
    | (Panic, b3) => (Panic, br_in b3)
    | (OutOfFuel, b3) => (OutOfFuel, br_in b3)
    end) as Hhead.
  { intros H1. destruct (parse_head m fm _ _ _ _ _ _ _ rest Hrsv Hop Hfit Hcs H1) as (buf & cs' & A & B & C & D).
    exists buf, cs'. repeat split; auto; try (apply C; auto). rewrite D. unfold after_head.
    assert (N.ltb 0 n = true) as -> by lia. reflexivity. }
  split.
  - intros H1 H4. destruct (Hhead H1) as (buf & cs' & A & B & C & ->).
    destruct (read_key m (rf_fin f) n k (xor_key k (rf_payload f)) cs' rest buf (head_len fm) Hkey A B) as [K _].
    destruct K as (k0 & k1 & k2 & k3 & buf' & cs2 & -> & A2 & B2 & ->).
    { intros i Hi Hc. apply (H4 i Hi). apply C; [lia|]. exact Hc. }
    unfold n. rewrite <- (xor_key_length [k0; k1; k2; k3] (rf_payload f)).
    rewrite (payload_complete m _ k0 k1 k2 k3 (xor_key [k0; k1; k2; k3] (rf_payload f)) buf' cs2 rest);
      auto; [|rewrite xor_key_length; exact Hlen].
    rewrite xor_key_twice. reflexivity.
  - intros Hbad. assert (cut_at cs 1 \/ ~ cut_at cs 1) as [H1|H1].
    { clear. destruct cs as [|c cs]; [right; intros (c1 & c2 & E & H); destruct c1; discriminate|].
      (* decidable: some prefix has length one *)
      assert (forall (l : list str) p, (exists c1 c2, l = c1 ++ c2 /\ length (concat c1) = p) \/
                         ~ (exists c1 c2, l = c1 ++ c2 /\ length (concat c1) = p)) as D.
      { induction l as [|x l IH]; intros p.
        - destruct p; [left; exists [], []; auto|right]. intros (c1 & c2 & E & H). destruct c1; discriminate.
        - destruct p as [|p]; [left; exists [], (x :: l); auto|].
          destruct (le_lt_dec (length x) (S p)) as [L|L].
          + destruct (IH (S p - length x)) as [(c1 & c2 & -> & H) | H].
            * left. exists (x :: c1), c2. split; [reflexivity|]. simpl. rewrite app_length. lia.
            * right. intros (c1 & c2 & E & E2). destruct c1 as [|y c1]; [discriminate|]. injection E as <- ->.
              apply H. exists c1, c2. split; [reflexivity|]. simpl in E2. rewrite app_length in E2. lia.
          + right. intros (c1 & c2 & E & E2). destruct c1 as [|y c1]; [discriminate|]. injection E as <- ->.
            simpl in E2. rewrite app_length in E2. lia. }
      apply D. }
    + destruct Hbad as [_|_]; (apply parse_cut_first with (1 := Hcs); [exact H1|discriminate]).
    + destruct Hbad as [Hb|(i & Hi & Hc)]; [contradiction|].
      destruct (Hhead H1) as (buf & cs' & A & B & C & ->).
      destruct (read_key m (rf_fin f) n k (xor_key k (rf_payload f)) cs' rest buf (head_len fm) Hkey A B) as [_ K].
      destruct K as (b' & ->); [|eexists; reflexivity].
      exists i. split; [exact Hi|]. apply C; [lia|]. exact Hc.
Qed.

(** An empty frame: its header is enough; what follows the header in later segments stays. *)
Lemma parse_empty m fm f cs rest :
  rfc_wf fm f -> rf_payload f = [] -> segments cs (rfc_encode fm f) -> ~ cut_at cs 1 ->
  exists lost cs', Forall (fun c => c <> []) cs' /\
    rfc_encode fm f = rfc_header fm f ++ lost ++ concat cs' /\
    (cs = [rfc_encode fm f] -> cs' = []) /\
    frame_parse m (map Data cs ++ rest) = (Ok (frame_view f), map Data cs' ++ rest).
Proof.
  intros (Hrsv & Hop & Hfit & Hkey) Hemp Hcs H1. pose proof frame_cap_big as Hbig.
  assert (head_len fm <= 10) as Hhl by (unfold head_len; destruct fm; simpl; lia).
  pose proof Hcs as Hcs0. unfold rfc_encode, rfc_header in Hcs0.
  set (tl := match rf_key f with Some k => k ++ xor_key k (rf_payload f) | None => rf_payload f end) in *.
  assert (length tl <= 4) as Htl.
  { unfold tl. rewrite Hemp. destruct (rf_key f); [|simpl; lia]. rewrite app_length, xor_key_length. simpl. lia. }
  destruct (parse_head m fm _ _ _ _ _ tl cs rest Hrsv Hop Hfit Hcs0 H1) as (buf & cs' & A & B & C & D).
  exists buf, cs'. repeat split; auto.
  - rewrite B. reflexivity.
  - intros Ecs. destruct cs' as [|c cs']; [reflexivity|]. exfalso.
    inversion A as [|? ? Hc Hrest]; subst.
    assert (length buf + length (concat (c :: cs')) = length tl) as Hl by (rewrite <- B, app_length; reflexivity).
    assert (0 < length (concat (c :: cs'))) as Hcpos by (simpl; rewrite app_length; destruct c; [congruence|simpl; lia]).
    assert (cut_at [rfc_encode fm f] (head_len fm + length buf)) as (c1 & c2 & E & E2).
    { apply C; [lia|]. exists [], (c :: cs'). split; [reflexivity|]. simpl. lia. }
    assert (length (rfc_encode fm f) = head_len fm + length tl) as Hle.
    { unfold rfc_encode, rfc_header, rfc_head. fold tl. rewrite !app_length, form_ext_length. reflexivity. }
    destruct c1 as [|x [|y c1]].
    + simpl in E2. unfold head_len in E2. lia.
    + injection E as <- _. cbn [concat] in E2. rewrite app_nil_r in E2. lia.
    + injection E as _ E. destruct c1; discriminate.
  - rewrite D. rewrite Hemp. unfold after_head, frame_view. rewrite Hemp. reflexivity.
Qed.

Lemma parse_well_cut m fm f cs rest :
  machine_ok m -> client_frame m fm f -> well_cut fm f cs ->
  frame_parse m (map Data cs ++ rest) = (Ok (frame_view f), rest).
Proof.
  intros Hm Hc [Hs Hw]. destruct (rf_payload f) as [|x p] eqn:Hp.
  - destruct Hc as [Hwf _]. subst cs.
    destruct (parse_empty m fm f _ rest Hwf Hp Hs) as (lost & cs' & _ & _ & E & ->).
    + intros (c1 & c2 & E & E2). destruct c1 as [|y [|z c1]]; [discriminate| |injection E as _ E; destruct c1; discriminate].
      injection E as <- _. simpl in E2. rewrite app_nil_r in E2.
      unfold rfc_encode, rfc_header, rfc_head in E2. rewrite !app_length in E2. simpl in E2. lia.
    + rewrite E by reflexivity. reflexivity.
  - destruct Hw as [W1 W2]. apply (parse_nonempty m fm f cs rest Hm Hc); auto. rewrite Hp. discriminate.
Qed.
