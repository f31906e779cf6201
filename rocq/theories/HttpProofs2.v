(** Proofs about the HTTP model, part 2: bodies. *)
From Verif Require Import Base HMap Num Utf8 Io IoProofs HttpModel HttpSpec Httparse HttpProofs.
Ltac Zify.zify_post_hook ::= Z.div_mod_to_equations.

(** What is still to be delivered from a body whose source still holds [rem]. *)
Definition body_sound {R} (b : body R) : Prop :=
  match b_length b with None => True | Some len => (b_read b <= len)%N end.
Definition body_left {R} (b : body R) : option N :=
  match b_length b with None => None | Some len => Some (len - b_read b)%N end.
Definition cut_to (left : option N) (rem : str) : str :=
  match left with None => rem | Some n => firstn (N.to_nat n) rem end.
Definition request_size (left : option N) (n : nat) : nat :=
  match left with None => n | Some l => N.to_nat (N.min l (N.of_nat n)) end.
Definition body_after {R} (b : body R) (r : R) (d : str) : body R :=
  Body r (b_mime b) (b_length b) (b_read b + N.of_nat (length d))%N.

Lemma body_read_eq {R} (rd : reader_fn R) n b : body_sound b ->
  body_read rd n b =
  if (match body_left b with Some 0%N => true | _ => false end) then (Ok [], b)
  else let '(r, s) := rd (request_size (body_left b) n) (b_reader b) in
       (r, body_after b s (match r with Ok d => d | _ => [] end)).
Proof.
  unfold body_sound, body_read, body_left, request_size, body_after.
  assert (forall (x : N) (y : N), x = (y + N.of_nat (length (@nil byte)))%N -> x = y) as Hz by (intros; cbn in *; lia).
  assert (b_read b + N.of_nat (length (@nil byte)) = b_read b)%N as Hnil by (cbn; lia).
  destruct (b_length b) as [len|].
  - intros Hle. destruct (N.eqb_spec len (b_read b)) as [He|He].
    + replace (len - b_read b)%N with 0%N by lia. reflexivity.
    + destruct (N.ltb_spec len (b_read b)); [lia|].
      destruct (len - b_read b)%N as [|p] eqn:Ep; [lia|]. rewrite <- Ep.
      destruct (rd _ (b_reader b)) as [[d|e| |] s]; rewrite ?Hnil; reflexivity.
  - intros _. destruct (rd _ (b_reader b)) as [[d|e| |] s]; rewrite ?Hnil; reflexivity.
Qed.

Lemma drain_loop_ok fuel sz i b rem tail :
  (forall j, 0 < sz j) -> rep true (b_reader b) rem tail -> 0 < br_cap (b_reader b) -> body_sound b ->
  (tail = [] \/ exists n, body_left b = Some n /\ (n <= N.of_nat (length rem))%N) ->
  br_size (b_reader b) < fuel ->
  exists ds b', drain_loop fuel sz i br_read b = (ds, (Ok tt, b')) /\ concat ds = cut_to (body_left b) rem /\
    Forall (fun d => d <> []) ds /\
    (forall n, body_left b = Some n -> (n <= N.of_nat (length rem))%N ->
       rep true (b_reader b') (skipn (N.to_nat n) rem) tail).
Proof.
  intros Hsz. revert i b rem. induction fuel as [|fuel IH]; intros i b rem Hrep Hcap Hs Hlim Hf; [lia|].
  cbn [drain_loop]. rewrite body_read_eq by exact Hs.
  destruct (match body_left b with Some 0%N => true | _ => false end) eqn:Hz.
  { destruct (body_left b) as [[|p]|] eqn:El; try discriminate.
    exists [], b. split; [reflexivity|]. split; [reflexivity|]. split; [constructor|]. intros n [= <-] _. exact Hrep. }
  set (req := request_size (body_left b) (sz i)).
  assert (0 < req) as Hreq.
  { unfold req, request_size. pose proof (Hsz i). destruct (body_left b) as [[|p]|]; [discriminate|lia|lia]. }
  assert (forall d, length d <= req -> body_sound (body_after b (b_reader b) d) /\
            body_left (body_after b (b_reader b) d) = option_map (fun n => (n - N.of_nat (length d))%N) (body_left b)) as Haft.
  { intros d Hd. unfold req, request_size in Hd. unfold body_sound, body_left, body_after in *. cbn.
    destruct (b_length b) as [len|]; [|auto]. split; [lia|]. cbn. f_equal. lia. }
  pose proof (br_read_any req (b_reader b)) as [_ Hany].
  assert (forall r', br_read req (b_reader b) = (Err EInterrupted, r') -> rep true r' rem tail -> br_cap r' = br_cap (b_reader b) ->
     exists ds b', drain_loop fuel sz (S i) br_read (body_after b r' []) = (ds, (Ok tt, b')) /\
       concat ds = cut_to (body_left b) rem /\ Forall (fun d => d <> []) ds /\
       (forall n, body_left b = Some n -> (n <= N.of_nat (length rem))%N ->
          rep true (b_reader b') (skipn (N.to_nat n) rem) tail)) as Hint.
  { intros r' E Hr' Hc'. rewrite E in Hany. cbn [fst snd] in Hany.
    destruct Hany as [(d & Hd & _)|(e & _ & Hsize)]; [discriminate|].
    destruct (Haft [] ltac:(cbn; lia)) as [_ Hleft]. 
    assert (body_left (body_after b r' []) = body_left b) as Hl0.
    { unfold body_left, body_after. cbn. destruct (b_length b); [f_equal; lia|reflexivity]. }
    destruct (IH (S i) (body_after b r' []) rem) as (ds & b' & E' & Hc & Hne & Hrest); auto.
    - cbn. congruence.
    - unfold body_sound, body_after in *. cbn. destruct (b_length b); lia.
    - rewrite Hl0. exact Hlim.
    - unfold br_size in *. cbn [b_reader body_after]. lia.
    - rewrite Hl0 in *. exists ds, b'. auto. }
  destruct rem as [|c0 rem0].
  { destruct Hlim as [-> | (n & Hn & Hle)].
    - destruct (br_read_rep_eof req (b_reader b) Hrep Hreq Hcap) as [(r' & E & Hr' & Hc')|(r' & E & Hr' & Hc' & Hsize)].
      + rewrite E. exists [], (body_after b r' []). split; [reflexivity|]. split.
        { unfold cut_to. destruct (body_left b); [now rewrite firstn_nil|reflexivity]. }
        split; [constructor|]. intros n Hn Hle. rewrite skipn_nil. exact Hr'.
      + rewrite E. apply Hint; auto.
    - rewrite Hn in Hz. cbn in Hle. destruct n; [discriminate|lia]. }
  set (rem := c0 :: rem0) in *.
  pose proof (br_read_rep true req (b_reader b) rem tail Hrep ltac:(discriminate) Hreq Hcap) as [Hcap' Hcase].
  destruct (br_read req (b_reader b)) as [r b1] eqn:E. cbn [fst snd] in *.
  destruct Hcase as [(k & Hk & Hkl & -> & Hr1) | (_ & -> & Hr1 & Hb0 & Hb1 & Hzz)].
  - destruct (firstn k rem) as [|y d] eqn:Hd.
    { apply (f_equal (@length _)) in Hd. rewrite firstn_length in Hd. cbn in Hd. lia. }
    assert (length (y :: d) = k) as Hlen by (rewrite <- Hd, firstn_length; lia).
    destruct Hany as [(d' & [= <-] & Hdl & Hsize) | (e & He & _)]; [|discriminate].
    destruct (Haft (y :: d) Hdl) as [Hs' Hleft'].
    assert (forall d, body_sound (body_after b b1 d) = body_sound (body_after b (b_reader b) d) /\
                      body_left (body_after b b1 d) = body_left (body_after b (b_reader b) d)) as Hsame by (split; reflexivity).
    destruct (Hsame (y :: d)) as [Hs1 Hl1].
    assert (k <= match body_left b with Some n => N.to_nat n | None => k end) as Hklim.
    { destruct (body_left b) as [n|]; [|lia]. unfold req, request_size in Hk. lia. }
    destruct (IH (S i) (body_after b b1 (y :: d)) (skipn k rem)) as (ds & b' & E' & Hc & Hne & Hrest).
    + exact Hr1.
    + cbn. lia.
    + rewrite Hs1. exact Hs'.
    + rewrite Hl1, Hleft'. destruct Hlim as [->|(n & Hn & Hle)]; [now left|right]. rewrite Hn. cbn [option_map]. eexists. split; [reflexivity|].
      rewrite skipn_length, Hlen. lia.
    + unfold br_size in *. cbn [b_reader body_after]. rewrite Hlen in Hsize. lia.
    + rewrite E'. exists ((y :: d) :: ds), b'. split; [reflexivity|]. rewrite Hl1, Hleft' in *.
      split; [|split; [constructor; [discriminate|exact Hne]|]].
      * cbn [concat]. rewrite Hc, <- Hd. destruct (body_left b) as [n|]; cbn [cut_to option_map].
        -- rewrite <- firstn_add. f_equal. rewrite ?firstn_length. lia.
        -- apply firstn_skipn.
      * intros n Hn Hle. rewrite Hn in Hrest. cbn [option_map] in Hrest. specialize (Hrest _ eq_refl).
        rewrite skipn_skipn_add, skipn_length, Hlen in Hrest.
        replace (k + N.to_nat (n - N.of_nat k)) with (N.to_nat n) in Hrest by (rewrite Hn in Hklim; lia).
        apply Hrest. lia.
  - apply Hint; auto.
Qed.

Lemma drain_ok sz b rem tail :
  (forall j, 0 < sz j) -> rep true (b_reader b) rem tail -> 0 < br_cap (b_reader b) -> body_sound b ->
  (tail = [] \/ exists n, body_left b = Some n /\ (n <= N.of_nat (length rem))%N) ->
  exists ds b', drain sz b = (ds, (Ok tt, b')) /\ concat ds = cut_to (body_left b) rem /\
    Forall (fun d => d <> []) ds /\
    (forall n, body_left b = Some n -> (n <= N.of_nat (length rem))%N ->
       rep true (b_reader b') (skipn (N.to_nat n) rem) tail).
Proof. intros. apply drain_loop_ok with (tail := tail); auto. Qed.

(** ** Any reader, any history of reads *)

(** The reads a program makes, one after the other. *)
Fixpoint body_reads {R} (rd : reader_fn R) (ns : list nat) (b : body R) : list (res ioerr str) * body R :=
  match ns with
  | [] => ([], b)
  | n :: ns' => let '(r, b1) := body_read rd n b in let '(rs, b2) := body_reads rd ns' b1 in (r :: rs, b2)
  end.
Definition got (r : res ioerr str) : str := match r with Ok d => d | _ => [] end.

(** The contract of [std::io::Read]: at most as many bytes as the buffer holds, no panic. *)
Definition reader_ok {R} (rd : reader_fn R) : Prop := forall n r,
  match fst (rd n r) with Ok d => length d <= n | Err _ => True | _ => False end.

Lemma br_reader_ok : reader_ok br_read.
Proof.
  intros n r. destruct (br_read_any n r) as [_ [(d & -> & H & _)|(e & -> & _)]]; auto.
Qed.

Lemma body_read_step {R} (rd : reader_fn R) n b r b' : reader_ok rd -> body_sound b -> body_read rd n b = (r, b') ->
  body_sound b' /\ b_length b' = b_length b /\ b_read b' = (b_read b + N.of_nat (length (got r)))%N /\
  r <> Panic /\ r <> OutOfFuel /\ length (got r) <= n.
Proof.
  intros Hok Hs. rewrite body_read_eq by exact Hs.
  destruct (match body_left b with Some 0%N => true | _ => false end) eqn:Hz.
  { intros [= <- <-]. cbn. repeat split; auto; try discriminate; lia. }
  pose proof (Hok (request_size (body_left b) n) (b_reader b)) as H.
  destruct (rd (request_size (body_left b) n) (b_reader b)) as [r0 s]. cbn [fst] in H. intros [= <- <-].
  assert (length (got r0) <= request_size (body_left b) n) as Hl by (destruct r0; cbn; lia).
  assert (match r0 with Ok d => d | _ => [] end = got r0) as -> by reflexivity.
  assert (length (got r0) <= n) as Hn.
  { unfold request_size in Hl. destruct (body_left b); lia. }
  unfold body_sound, body_left, request_size, body_after in *. cbn [b_length b_read].
  repeat split; auto; try (destruct r0; [discriminate|discriminate|contradiction|contradiction]).
  destruct (b_length b); lia.
Qed.

Lemma body_reads_bound {R} (rd : reader_fn R) ns b rs b' : reader_ok rd -> body_sound b ->
  body_reads rd ns b = (rs, b') ->
  body_sound b' /\ b_length b' = b_length b /\
  b_read b' = (b_read b + N.of_nat (length (concat (map got rs))))%N /\
  Forall2 (fun n r => r <> Panic /\ r <> OutOfFuel /\ length (got r) <= n) ns rs.
Proof.
  intros Hok. revert b rs. induction ns as [|n ns IH]; intros b rs Hs; cbn [body_reads].
  - intros [= <- <-]. cbn. repeat split; auto. lia.
  - destruct (body_read rd n b) as [r b1] eqn:E1. destruct (body_reads rd ns b1) as [rs1 b2] eqn:E2. intros [= <- <-].
    destruct (body_read_step rd n b r b1 Hok Hs E1) as (S1 & L1 & R1 & P1 & P2 & P3).
    destruct (IH b1 rs1 S1 E2) as (S2 & L2 & R2 & F2).
    split; [exact S2|]. split; [congruence|]. split; [|constructor; auto].
    cbn [map concat]. rewrite app_length, R2, R1. lia.
Qed.

(** With puck's own readers the reads are consecutive pieces of the source. *)
Lemma body_reads_prefix ns b rs b' : body_sound b -> body_reads br_read ns b = (rs, b') ->
  avail (b_reader b) = concat (map got rs) ++ avail (b_reader b').
Proof.
  revert b rs. induction ns as [|n ns IH]; intros b rs Hs; cbn [body_reads].
  - now intros [= <- <-].
  - destruct (body_read br_read n b) as [r b1] eqn:E1. destruct (body_reads br_read ns b1) as [rs1 b2] eqn:E2. intros [= <- <-].
    destruct (body_read_step _ n b r b1 br_reader_ok Hs E1) as (S1 & _).
    cbn [map concat]. rewrite <- app_assoc, <- (IH b1 rs1 S1 E2).
    rewrite body_read_eq in E1 by exact Hs.
    destruct (match body_left b with Some 0%N => true | _ => false end); [injection E1 as <- <-; reflexivity|].
    pose proof (br_read_bytes (request_size (body_left b) n) (b_reader b)) as H.
    destruct (br_read (request_size (body_left b) n) (b_reader b)) as [r0 s]. injection E1 as <- <-. exact H.
Qed.

(** A string body: every read with a non-empty buffer before the end makes progress, and the reads
    give back the string. *)
Lemma from_string_reads s ns rs b' : body_reads br_read ns (body_from_string s) = (rs, b') ->
  exists rest, s = concat (map got rs) ++ rest.
Proof.
  intros H. apply body_reads_prefix in H; [|unfold body_sound, body_from_string; cbn; lia].
  cbn in H. rewrite app_nil_r in H. eauto.
Qed.

Lemma rep_cursor s : rep true (cursor s) s [].
Proof. exists []. cbn. rewrite app_nil_r. split; [reflexivity|constructor]. Qed.

Lemma from_string_drain sz s : (forall j, 0 < sz j) ->
  exists ds b', drain sz (body_from_string s) = (ds, (Ok tt, b')) /\ concat ds = s.
Proof.
  intros Hsz. destruct (drain_ok sz (body_from_string s) s []) as (ds & b' & E & Hc & _); [exact Hsz|apply rep_cursor|cbn; lia|unfold body_sound; cbn [b_length body_from_string b_read]; lia|now left|].
  exists ds, b'. split; [exact E|]. rewrite Hc. unfold body_left. cbn. rewrite N.sub_0_r, Nat2N.id. apply firstn_all.
Qed.

(** As long as the buffers are not empty, a string body delivers until it is exhausted. *)
Lemma from_string_progress s ns rs b' : Forall (fun n => 0 < n) ns -> length s <= length ns ->
  body_reads br_read ns (body_from_string s) = (rs, b') -> concat (map got rs) = s.
Proof.
  intros Hns Hlen H.
  assert (forall ns b rs b', body_sound b -> br_in (b_reader b) = [] ->
     (match b_length b with Some l => (b_read b + N.of_nat (length (br_buf (b_reader b))) = l)%N | None => True end) ->
     Forall (fun n => 0 < n) ns -> length (br_buf (b_reader b)) <= length ns ->
     body_reads br_read ns b = (rs, b') -> concat (map got rs) = br_buf (b_reader b)) as G.
  { clear. intros ns. induction ns as [|n ns IH]; intros b rs b' Hs Hin Hl Hns Hlen; cbn [body_reads].
    - intros [= <- <-]. cbn in *. destruct (br_buf (b_reader b)); [reflexivity|cbn in Hlen; lia].
    - destruct (body_read br_read n b) as [r b1] eqn:E1. destruct (body_reads br_read ns b1) as [rs1 b2] eqn:E2. intros [= <- <-].
      inversion_clear Hns as [|? ? Hn Hns'].
      destruct (body_read_step _ n b r b1 br_reader_ok Hs E1) as (S1 & L1 & R1 & _).
      rewrite body_read_eq in E1 by exact Hs.
      destruct (match body_left b with Some 0%N => true | _ => false end) eqn:Hz.
      { injection E1 as <- <-. cbn [map concat got app].
        assert (br_buf (b_reader b) = []) as Hb.
        { unfold body_left in Hz. destruct (b_length b) as [l|]; [|discriminate].
          destruct (br_buf (b_reader b)); [reflexivity|]. cbn in Hl. destruct (l - b_read b)%N eqn:?; [lia|discriminate]. }
        eapply IH; eauto. rewrite Hb. cbn. lia. }
      set (q := request_size (body_left b) n) in *.
      assert (0 < q) as Hq.
      { unfold q, request_size. destruct (body_left b) as [[|p]|]; [discriminate|lia|lia]. }
      assert (br_read q (b_reader b) = (Ok (firstn q (br_buf (b_reader b))), BR (skipn q (br_buf (b_reader b))) (br_cap (b_reader b)) [])) as Er.
      { unfold br_read, br_fill. destruct (br_buf (b_reader b)) as [|c buf] eqn:Eb.
        - cbn [andb]. rewrite Hin. rewrite firstn_nil, skipn_nil. destruct (Nat.leb (br_cap (b_reader b)) q); cbn [raw_read]; [reflexivity|].
          rewrite firstn_nil, skipn_nil. reflexivity.
        - cbn [andb]. rewrite Hin. reflexivity. }
      rewrite Er in E1. injection E1 as <- <-. cbn [map concat got].
      erewrite (IH (body_after b (BR (skipn q (br_buf (b_reader b))) (br_cap (b_reader b)) []) (firstn q (br_buf (b_reader b))))); [| | | | | |exact E2].
      + cbn. apply firstn_skipn.
      + exact S1.
      + reflexivity.
      + rewrite L1. destruct (b_length b) as [l|]; [|auto]. rewrite R1. cbn [b_reader br_buf got body_after].
        assert (length (br_buf (b_reader b)) = length (firstn q (br_buf (b_reader b))) + length (skipn q (br_buf (b_reader b)))) by
          (rewrite <- app_length, firstn_skipn; reflexivity). lia.
      + exact Hns'.
      + cbn. rewrite skipn_length. cbn in Hlen. lia. }
  apply (G ns (body_from_string s) rs b'); auto.
  - unfold body_sound, body_from_string. cbn. lia.
  - reflexivity.
Qed.
