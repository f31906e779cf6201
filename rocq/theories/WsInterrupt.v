(** Frames read from a transport whose reads may be interrupted. *)
From Verif Require Import Base Io IoProofs WsModel WsSpec WsBridge WsProofs.
From Coq Require Import Lia.

(** The transport without the interrupted reads. *)
Definition calm : stream -> stream := filter (fun e => match e with Fail EInterrupted => false | _ => true end).

Lemma calm_delivers s : forall cs r, Forall (fun c => c <> []) cs -> calm s = map Data cs ++ r -> exists rest, delivers true s (concat cs) rest /\ calm rest = r.
Proof.
  induction s as [|e s IH]; intros cs r F H.
  - destruct cs; [|discriminate]. exists []. split; [constructor|exact H].
  - destruct cs as [|c cs]; [exists (e :: s); split; [constructor|exact H]|].
    destruct e as [d|[]]; cbn [calm filter] in H; fold (calm s) in H.
    + injection H as -> H. inversion F; subst. destruct (IH cs r) as (rest & D & E); auto. exists rest. split; [|exact E]. cbn [concat]. now constructor.
    + destruct (IH (c :: cs) r F H) as (rest & D & E). exists rest. split; [|exact E]. now constructor.
    + discriminate.
Qed.
Lemma delivers_nil_calm s rest : delivers true s [] rest -> calm s = calm rest.
Proof.
  intros H. remember [] as w eqn:E. revert E. induction H as [rest|d s bytes rest Hd H IH|s bytes rest _ H IH]; intros E; [reflexivity| |now apply IH].
  destruct d; [congruence|discriminate].
Qed.

Definition sim (b c : bufreader) : Prop := br_buf b = br_buf c /\ br_cap b = br_cap c /\ calm (br_in b) = br_in c.
Lemma raw_sim n s : (exists s', raw_read n s = (Err EInterrupted, s') /\ calm s' = calm s) \/
  exists r s', raw_read n s = (r, s') /\ raw_read n (calm s) = (r, calm s').
Proof.
  destruct s as [|[d|[]] s]; cbn [calm filter].
  - right. now exists (Ok []), [].
  - right. cbn [raw_read]. destruct (skipn n d) as [|x y]; eexists _, _; split; reflexivity.
  - left. now exists s.
  - right. now exists (Err EOther), s.
Qed.
Lemma read_sim n b c : sim b c -> (exists b', br_read n b = (Err EInterrupted, b') /\ sim b' c) \/
  exists r b' c', br_read n b = (r, b') /\ br_read n c = (r, c') /\ sim b' c'.
Proof.
  destruct b as [buf cap s], c as [buf' cap' s']. intros (E1 & E2 & E3). cbn [br_buf br_cap br_in] in *. subst.
  unfold br_read, br_fill. cbn [br_buf br_cap br_in]. destruct buf' as [|x buf].
  - cbn [andb]. destruct (Nat.leb cap' n).
    + destruct (raw_sim n s) as [(s' & -> & E)|(r & s' & -> & ->)]; [left; eexists; split; [reflexivity|]; repeat split; auto|right; eexists _, _, _; split; [reflexivity|]; split; [reflexivity|]; repeat split].
    + destruct (raw_sim cap' s) as [(s' & -> & E)|(r & s' & -> & ->)]; [left; eexists; split; [reflexivity|]; repeat split; auto|right].
      destruct r as [d|e| |]; eexists _, _, _; (split; [reflexivity|]; split; [reflexivity|]; repeat split).
  - right. cbn [andb]. eexists _, _, _. split; [reflexivity|]. split; [reflexivity|]. repeat split.
Qed.
(** From a buffer that is not empty, a read does not touch the transport. *)
Lemma read_sim_buf n b c : sim b c -> br_buf b <> [] -> exists r b' c', br_read n b = (r, b') /\ br_read n c = (r, c') /\ sim b' c'.
Proof.
  destruct b as [buf cap s], c as [buf' cap' s']. intros (E1 & E2 & E3) Hb. cbn [br_buf br_cap br_in] in *. subst.
  unfold br_read, br_fill. cbn [br_buf br_cap br_in]. destruct buf' as [|x buf]; [congruence|].
  cbn [andb]. eexists _, _, _. split; [reflexivity|]. split; [reflexivity|]. repeat split.
Qed.

Lemma exact_mono fuel : forall n acc b r b' fuel2, read_exact_loop fuel n acc b = (r, b') -> r <> OutOfFuel -> fuel <= fuel2 -> read_exact_loop fuel2 n acc b = (r, b').
Proof.
  induction fuel as [|fuel IH]; intros [|n] acc b r b' fuel2 H Hr Hf; destruct fuel2 as [|fuel2]; try lia; cbn [read_exact_loop] in *; try assumption; try congruence.
  destruct (br_read (S n) b) as [[[|x d]|[]| |] b1]; try assumption; (eapply IH; [exact H|exact Hr|lia]).
Qed.
Lemma exact_sim fuel : forall n acc b c r b', sim b c -> read_exact_loop fuel n acc b = (r, b') -> r <> OutOfFuel ->
  exists c', read_exact_loop fuel n acc c = (r, c') /\ sim b' c'.
Proof.
  induction fuel as [|fuel IH]; intros [|n] acc b c r b' Hs H Hr; cbn [read_exact_loop] in *.
  - injection H as <- <-. eauto.
  - congruence.
  - injection H as <- <-. eauto.
  - destruct (read_sim (S n) b c Hs) as [(b1 & E & S1)|(r1 & b1 & c1 & E & Ec & S1)]; rewrite E in H.
    + destruct (IH _ _ _ _ _ _ S1 H Hr) as (c' & Hc & S2). exists c'. split; [|exact S2].
      pose proof (exact_mono fuel _ _ _ _ _ (S fuel) Hc Hr ltac:(lia)) as X. exact X.
    + rewrite Ec. destruct r1 as [[|x d]|[]| |].
      * injection H as <- <-. eauto.
      * exact (IH _ _ _ _ _ _ S1 H Hr).
      * exact (IH _ _ _ _ _ _ S1 H Hr).
      * injection H as <- <-. eauto.
      * injection H as <- <-. eauto.
      * injection H as <- <-. eauto.
Qed.
Lemma read_exact_sim n b c r b' : sim b c -> read_exact n b = (r, b') -> exists c', read_exact n c = (r, c') /\ sim b' c'.
Proof.
  intros Hs H. assert (r <> OutOfFuel) as T. { pose proof (read_exact_total n b) as T. rewrite H in T. cbn [fst] in T. destruct T as [(d & -> & _)|(e & ->)]; discriminate. } unfold read_exact in *.
  destruct (exact_sim _ _ _ _ _ _ _ Hs H T) as (c' & Hc & S2). exists c'. split; [|exact S2].
  destruct (read_exact_loop (S (length (br_buf c) + stream_size (br_in c))) n [] c) as [r2 c2] eqn:E2.
  assert (r2 <> OutOfFuel) as T2. { pose proof (read_exact_total n c) as T2. unfold read_exact in T2. rewrite E2 in T2. cbn [fst] in T2. destruct T2 as [(d & -> & _)|(e & ->)]; discriminate. }
  match type of Hc with read_exact_loop ?f _ _ _ = _ => set (f1 := f) in * end.
  match type of E2 with read_exact_loop ?f _ _ _ = _ => set (f2 := f) in * end.
  pose proof (exact_mono _ _ _ _ _ _ (max f1 f2) Hc T ltac:(lia)) as X1. pose proof (exact_mono _ _ _ _ _ _ (max f1 f2) E2 T2 ltac:(lia)) as X2. congruence.
Qed.
Lemma read_length_sim x b c : sim b c -> exists r b' c', read_length x b = (r, b') /\ read_length x c = (r, c') /\ sim b' c'.
Proof.
  intros Hs. unfold read_length. destruct (N.eqb _ 126).
  - destruct (read_exact 2 b) as [r b'] eqn:E. destruct (read_exact_sim _ _ _ _ _ Hs E) as (c' & -> & S'). destruct r; eexists _, _, _; (split; [reflexivity|]; split; [reflexivity|exact S']).
  - destruct (N.eqb _ 127); [|eexists _, _, _; split; [reflexivity|]; split; [reflexivity|exact Hs]].
    destruct (read_exact 8 b) as [r b'] eqn:E. destruct (read_exact_sim _ _ _ _ _ Hs E) as (c' & -> & S'). destruct r; eexists _, _, _; (split; [reflexivity|]; split; [reflexivity|exact S']).
Qed.

(** The header, read from an interrupted transport that does not start with an interruption. *)
Lemma parse_head_intr m fm fin rsv op masked n tail cs d0 s0 r :
  (rsv < 8)%N -> (op < 16)%N -> form_fits fm n ->
  segments cs (rfc_head fm fin rsv op masked n ++ tail) -> ~ cut_at cs 1 ->
  calm (Data d0 :: s0) = map Data cs ++ r ->
  exists buf cs' s',
    Forall (fun c => c <> []) cs' /\ buf ++ concat cs' = tail /\
    (forall p, head_len fm <= p < frame_cap -> (cut_at cs p <-> cut (head_len fm) buf cs' p)) /\
    calm s' = map Data cs' ++ r /\
    frame_parse m (Data d0 :: s0) =
    after_head m fin (N.testbit rsv 2) (N.testbit rsv 1) (N.testbit rsv 0) (opcode_named op) masked n
      (BR buf frame_cap s').
Proof.
  intros Hr Ho Hfit [Hne Hcs] Hcut1 Hcalm. pose proof frame_cap_big as Hbig.
  assert (forall p, cut 0 [] cs p <-> cut_at cs p) as Hca.
  { intros p. unfold cut, cut_at. simpl. split; intros (c1 & c2 & E & H); exists c1, c2; auto. }
  destruct (br_read_track 2 (BR [] frame_cap (map Data cs ++ r)) cs r 0 eq_refl Hne)
    as (d & buf1 & cs1 & E & Hd & Hl & Hne1 & Hsp & Hcut & Hshort); cbn [br_buf br_cap br_in] in *.
  { rewrite Hcs. discriminate. }
  { lia. }
  assert (length d = 2) as Hd2.
  { destruct (Nat.eq_dec (length d) 2); [auto|]. exfalso. apply Hcut1. apply Hca.
    replace 1 with (0 + length d) by (destruct d; [congruence|simpl in *; lia]). apply Hshort. lia. }
  destruct d as [|a [|b [|]]]; try discriminate.
  simpl in Hsp. rewrite Hcs in Hsp. unfold rfc_head in Hsp. simpl in Hsp. injection Hsp as <- <- Hsp.
  destruct (read_length_track fm n masked (BR buf1 frame_cap (map Data cs1 ++ r)) cs1 r tail 2
              Hfit eq_refl eq_refl Hne1 (eq_sym Hsp)) as (buf2 & cs2 & E2 & Hne2 & Hsp2 & Hcut2).
  cbn [br_buf] in *.
  assert (sim (BR [] frame_cap (Data d0 :: s0)) (BR [] frame_cap (map Data cs ++ r))) as S0 by (repeat split; exact Hcalm).
  destruct (read_sim 2 _ _ S0) as [(b' & E' & _)|(x & b1 & c1 & E1 & Ec & S1)].
  { exfalso. clear -E' Hbig. unfold br_read, br_fill in E'. cbn [br_buf br_cap br_in andb raw_read] in E'. destruct (Nat.leb_spec frame_cap 2); [lia|].
    destruct (skipn frame_cap d0); discriminate. }
  rewrite E in Ec. injection Ec as <- <-.
  destruct (read_length_sim (n2b (flag masked 128 + form_field fm n)) _ _ S1) as (y & b2 & c2 & F1 & F2 & S2). rewrite E2 in F2. injection F2 as <- <-.
  destruct b2 as [bf cp s']. destruct S2 as (T1 & T2 & T3). cbn [br_buf br_cap br_in] in *. subst bf cp.
  exists buf2, cs2, s'. repeat split; auto.
  - intros Hc. unfold head_len in *. apply Hcut2; [lia|]. apply Hcut; [simpl; lia|]. now apply Hca.
  - intros Hc. unfold head_len in *. apply Hca. apply Hcut; [simpl; lia|]. apply Hcut2; [lia|]. exact Hc.
  - unfold frame_parse. rewrite E1.
    destruct (first_byte fin rsv op Hr Ho) as (H1 & H2 & H3 & H4 & H5).
    destruct (second_byte masked (form_field fm n) (form_field_lt fm n Hfit)) as [H6 _].
    rewrite H5, opcode_of_named by assumption. rewrite F1, H1, H2, H3, H4, H6. reflexivity.
Qed.

(** The key is read from the buffer if it starts in the segment in which the length ends. *)
Lemma parse_interrupted m fm f cs d0 s0 r :
  machine_ok m -> client_frame m fm f -> rf_payload f <> [] -> segments cs (rfc_encode fm f) ->
  ~ cut_at cs 1 -> (forall i, i < 4 -> ~ cut_at cs (head_len fm + i)) -> calm (Data d0 :: s0) = map Data cs ++ r ->
  exists s', frame_parse m (Data d0 :: s0) = (Ok (frame_view f), s') /\ calm s' = r.
Proof.
  intros Hm [(Hrsv & Hop & Hfit & Hkey) [Hmask Hlen]] Hne Hcs H1 H4 Hcalm.
  unfold is_masked in Hmask. destruct (rf_key f) as [k|] eqn:Ek; [|discriminate].
  rewrite (rfc_encode_masked fm f k Ek) in Hcs. pose proof frame_cap_big as Hbig.
  set (n := N.of_nat (length (rf_payload f))) in *.
  assert (0 < n)%N as Hpos by (unfold n; destruct (rf_payload f); [congruence|cbn [length]; lia]).
  assert (head_len fm <= 10) as Hhl by (unfold head_len; destruct fm; simpl; lia).
  destruct (parse_head_intr m fm _ _ _ _ _ _ _ d0 s0 r Hrsv Hop Hfit Hcs H1 Hcalm) as (buf & cs' & s' & A & B & C & D & E).
  assert (4 <= length buf) as Hbuf.
  { destruct (le_lt_dec 4 (length buf)) as [L|L]; [exact L|]. exfalso. apply (H4 (length buf) L). apply C; [lia|]. exists [], cs'. split; [reflexivity|]. simpl. lia. }
  destruct k as [|k0 [|k1 [|k2 [|k3 [|]]]]]; try discriminate. destruct buf as [|b0 [|b1 [|b2 [|b3 buf']]]]; try (cbn [length] in Hbuf; lia).
  cbn [app] in B. injection B as -> -> -> -> B2.
  assert (read_payload m (rf_fin f) n (BR (k0 :: k1 :: k2 :: k3 :: buf') frame_cap s') = payload_done m (rf_fin f) n k0 k1 k2 k3 (BR buf' frame_cap s')) as E2 by reflexivity.
  rename cs' into cs2, A into A2, D into D2. rename s' into s2.
  rewrite E. unfold after_head. assert (N.ltb 0 n = true) as -> by lia. cbn [andb negb]. rewrite E2.
  unfold payload_done. rewrite as_usize_small by assumption.
  assert (N.ltb (max_alloc m) n = false) as -> by lia.
  destruct (calm_delivers s2 cs2 r A2 D2) as (rest & Del & Hrest).
  assert (rep true (BR buf' frame_cap s2) (xor_key [k0; k1; k2; k3] (rf_payload f)) rest) as Hrep.
  { exists (concat cs2). split; [now rewrite <- B2|exact Del]. }
  assert (length (xor_key [k0; k1; k2; k3] (rf_payload f)) = length (rf_payload f)) as Hx by apply xor_key_length.
  destruct (take_to_end_rep true (read_sizes m) n _ _ rest (proj2 (proj2 Hm)) Hrep) as (b' & -> & Hr & Hc); [simpl; lia|unfold n; lia|].
  unfold n in *. rewrite Nat2N.id, <- Hx, firstn_all in *. cbv zeta. rewrite Hx. assert (N.ltb (max_alloc m) (N.of_nat (length (rf_payload f))) = false) as -> by lia. rewrite N.eqb_refl. cbn [negb].
  rewrite skipn_all in Hr. rewrite unmask_xor. change (xor_from [k0; k1; k2; k3] 0 (xor_key [k0; k1; k2; k3] (rf_payload f))) with (xor_key [k0; k1; k2; k3] (xor_key [k0; k1; k2; k3] (rf_payload f))). rewrite xor_key_twice. exists (br_in b'). split; [reflexivity|].
  destruct Hr as (bytes & Hb & Hd). symmetry in Hb. apply app_eq_nil in Hb as [_ ->]. now rewrite (delivers_nil_calm _ _ Hd).
Qed.
