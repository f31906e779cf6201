(** What one [Frame::parse] throws away: exactly the bytes its private buffer still holds. *)
From Verif Require Import Base Io IoProofs WsModel WsSpec WsBridge WsProofs WsProofs2.

(** ** The buffer never holds a full capacity once something was taken from it *)
Lemma raw_read_len n s d s' : raw_read n s = (Ok d, s') -> length d <= n.
Proof.
  destruct s as [|[d0|e] s]; cbn [raw_read]; [intros [= <- <-]; simpl; lia| |discriminate].
  destruct (skipn n d0) eqn:Hs; intros [= <- <-].
  - apply (f_equal (@length _)) in Hs. rewrite skipn_length in Hs. simpl in Hs. lia.
  - rewrite firstn_length. lia.
Qed.

Definition held (b : bufreader) : Prop := length (br_buf b) < br_cap b.

Lemma br_read_held n b : 0 < n -> held b -> held (snd (br_read n b)) /\ br_cap (snd (br_read n b)) = br_cap b.
Proof.
  unfold held, br_read, br_fill. intros Hn H. destruct (br_buf b) as [|c buf] eqn:Eb.
  - cbn [andb]. destruct (Nat.leb (br_cap b) n).
    + destruct (raw_read n (br_in b)) as [r s']. cbn. split; [simpl in H; lia|reflexivity].
    + destruct (raw_read (br_cap b) (br_in b)) as [[d|e| |] s'] eqn:E; cbn [snd br_buf br_cap]; split; auto.
      apply raw_read_len in E. rewrite skipn_length. simpl in H. lia.
  - cbn [andb snd br_buf br_cap]. split; [|reflexivity]. rewrite skipn_length. lia.
Qed.

Lemma read_exact_loop_held fuel n acc b : held b ->
  held (snd (read_exact_loop fuel n acc b)) /\ br_cap (snd (read_exact_loop fuel n acc b)) = br_cap b.
Proof.
  revert n acc b. induction fuel as [|fuel IH]; intros [|n] acc b H; cbn [read_exact_loop snd]; auto.
  destruct (br_read_held (S n) b) as [H1 C1]; [lia|exact H|]. destruct (br_read (S n) b) as [[[|y d]|[|]| |] b1];
    cbn [snd] in *; auto.
  - destruct (IH (S n - length (y :: d)) (acc ++ y :: d) b1 H1) as [A B]. split; [exact A|congruence].
  - destruct (IH (S n) acc b1 H1) as [A B]. split; [exact A|congruence].
Qed.

Lemma take_loop_held fuel sz i limit acc b : (forall j, 0 < sz j) -> held b ->
  held (snd (take_to_end_loop fuel sz i limit acc b)) /\ br_cap (snd (take_to_end_loop fuel sz i limit acc b)) = br_cap b.
Proof.
  intros Hsz. revert i limit acc b. induction fuel as [|fuel IH]; intros i limit acc b H; cbn [take_to_end_loop];
    destruct (N.eqb_spec limit 0); cbn [snd]; auto.
  set (req := if (limit <? N.of_nat (sz i))%N then N.to_nat limit else sz i).
  assert (0 < req) as Hreq by (unfold req; pose proof (Hsz i); destruct (N.ltb _ _); lia).
  destruct (br_read_held req b Hreq H) as [H1 C1]. destruct (br_read req b) as [[[|y d]|[|]| |] b1];
    cbn [snd] in *; auto.
  - destruct (IH (S i) (limit - N.of_nat (length (y :: d)))%N (acc ++ y :: d) b1 H1) as [A B]. split; [exact A|congruence].
  - destruct (IH (S i) limit acc b1 H1) as [A B]. split; [exact A|congruence].
Qed.

Lemma read_length_held c b : held b -> held (snd (read_length c b)) /\ br_cap (snd (read_length c b)) = br_cap b.
Proof.
  intros H. unfold read_length, read_exact.
  destruct (N.eqb _ 126); [|destruct (N.eqb _ 127); [|auto]];
  match goal with |- context [read_exact_loop ?f ?n ?a ?b] =>
    pose proof (read_exact_loop_held f n a b H) as K; destruct (read_exact_loop f n a b) as [[]]; exact K end.
Qed.

Lemma read_payload_held m fin len b : (forall i, 0 < read_sizes m i) -> held b ->
  held (snd (read_payload m fin len b)) /\ br_cap (snd (read_payload m fin len b)) = br_cap b.
Proof.
  intros Hsz H. unfold read_payload. destruct (br_read_held 4 b) as [H1 C1]; [lia|exact H|].
  destruct (br_read 4 b) as [[d|e| |] b1]; cbn [snd] in *; auto.
  destruct d as [|k0 [|k1 [|k2 [|k3 [|k4 d]]]]]; cbn [snd]; auto.
  destruct (N.ltb _ _); cbn [snd]; auto. unfold take_to_end.
  match goal with |- context [take_to_end_loop ?f ?z ?i ?l ?a ?b] =>
    pose proof (take_loop_held f z i l a b Hsz H1) as [K1 K2]; destruct (take_to_end_loop f z i l a b) as [[] b2] end;
  cbn [snd] in *; try (split; [assumption|congruence]).
  cbv zeta. repeat match goal with |- context [if ?c then _ else _] => destruct c end; cbn [snd];
    split; try assumption; congruence.
Qed.

(** What [Frame::parse] consumed is the frame itself followed by what was left in its buffer. *)
Lemma frame_parse_loss m s f s' : machine_ok m -> frame_parse m s = (Ok f, s') ->
  exists a b ext key enc lost,
    bytes_of s = (a :: b :: ext ++ key ++ enc) ++ lost ++ bytes_of s' /\
    length ext = ext_len b /\ length lost < frame_cap /\
    (N.of_nat (length enc) = declared_len b ext mod 2 ^ ptr_width m)%N /\
    (declared_len b ext = 0 /\ key = [] \/ 0 < declared_len b ext /\ mask_bit b = true /\ length key = 4%nat)%N /\
    decoded f = xor_key key enc.
Proof.
  intros Hm. pose proof (proj2 (proj2 Hm)) as Hsz. pose proof frame_cap_big as Hbig. unfold frame_parse.
  pose proof (br_read_bytes 2 (BR [] frame_cap s)) as Hb1.
  assert (held (BR [] frame_cap s)) as H0 by (unfold held; cbn [br_buf br_cap length]; lia).
  destruct (br_read_held 2 _ ltac:(lia) H0) as [Hh1 Hc1]. clear H0.
  destruct (br_read 2 (BR [] frame_cap s)) as [r1 b1] eqn:E1. cbn [fst snd br_cap] in *.
  unfold avail in Hb1 at 1. cbn [br_buf br_in app length] in *.
  destruct r1 as [d|e| |]; try discriminate.
  destruct d as [|a [|b [|c d]]]; try discriminate.
  destruct (bits_byte a) as (A1 & A2 & A3 & A4 & A5 & _).
  rewrite A5, opcode_of_named by (pose proof (b2n_lt a); lia).
  destruct (read_length_held b b1 Hh1) as [Hh2 Hc2].
  destruct (read_length b b1) as [rl b2] eqn:E2. cbn [snd] in *.
  destruct (read_length_any _ _ _ _ E2) as [(ext & Hel & -> & Ha) | (e & ->)]; [|discriminate].
  destruct (bits_byte b) as (B1 & _).
  set (len := declared_len b ext) in *.
  destruct (N.ltb_spec 0 len) as [Hpos|Hzero].
  - destruct (bit_set b 128) eqn:Hmask; cbn [andb negb]; [|discriminate].
    destruct (read_payload_held m (bit_set a 128) len b2 Hsz Hh2) as [Hh3 Hc3].
    destruct (read_payload m (bit_set a 128) len b2) as [rp b3] eqn:E3. cbn [snd] in *.
    destruct (read_payload_any m _ _ _ _ _ Hm E3) as (_ & _ & Hok & _).
    destruct rp as [d|e| |]; try discriminate. intros [= <- <-].
    destruct (Hok d eq_refl) as (key & enc & Hav & Hk & -> & Hl & Hmax).
    exists a, b, ext, key, enc, (br_buf b3). cbn [decoded]. repeat split; auto.
    + rewrite Hb1, Ha, Hav. unfold avail. simpl. now rewrite <- !app_assoc.
    + unfold held in Hh3. congruence.
  - cbn [andb]. intros [= <- <-]. assert (len = 0)%N as Hz by lia.
    exists a, b, ext, [], [], (br_buf b2). cbn [decoded]. fold len. rewrite Hz. repeat split; auto.
    + rewrite Hb1, Ha. unfold avail. simpl. now rewrite app_nil_r.
    + unfold held in Hh2. congruence.
Qed.

(** ** A segment that carries the end of a frame and more *)

(** The reader still has [rem] of the current frame to give; the segment holding its last byte also
    holds [extra], and then comes [rest]. *)
Definition edge (extra : str) (rest : stream) (b : bufreader) (rem : str) : Prop :=
  br_cap b = frame_cap /\
  ((exists cs l, br_in b = map Data cs ++ Data (l ++ extra) :: rest /\ Forall (fun c => c <> []) cs /\ l <> [] /\
      length (l ++ extra) <= frame_cap /\ rem = br_buf b ++ concat cs ++ l) \/
   (br_in b = rest /\ br_buf b = rem ++ extra)).

Lemma edge_read extra rest b rem n : edge extra rest b rem -> 0 < n <= length rem ->
  exists d rem' b', br_read n b = (Ok d, b') /\ d <> [] /\ length d <= n /\ rem = d ++ rem' /\ edge extra rest b' rem'.
Proof.
  intros [Hcap Hst] Hn. destruct b as [buf cap s]. cbn [br_buf br_cap br_in] in *. subst cap.
  unfold br_read, br_fill. cbn [br_buf br_cap br_in]. destruct buf as [|x buf].
  - destruct Hst as [(cs & l & -> & Hne & Hl & Hle & ->) | [-> E]].
    2: { symmetry in E. apply app_eq_nil in E as [-> ->]. simpl in Hn. lia. }
    cbn [app] in *. destruct cs as [|c cs].
    + cbn [map app concat] in *. cbn [andb]. destruct (Nat.leb_spec frame_cap n) as [Hc|Hc].
      * (* the request takes the whole segment *)
        assert (extra = []) as -> by (rewrite app_length in Hle; destruct extra; [reflexivity|simpl in *; lia]).
        rewrite app_nil_r in *. cbn [raw_read]. rewrite skipn_all2 by lia.
        exists l, [], (BR [] frame_cap rest). rewrite app_nil_r. repeat split; auto; try lia.
      * cbn [raw_read]. rewrite skipn_all2 by lia. cbn [br_cap br_in].
        exists (firstn n l), (skipn n l), (BR (skipn n (l ++ extra)) frame_cap rest).
        rewrite firstn_app_le by lia. repeat split.
        -- destruct n; [lia|]. destruct l; [congruence|discriminate].
        -- rewrite firstn_length. lia.
        -- now rewrite firstn_skipn.
        -- right. cbn [br_in br_buf]. split; [reflexivity|]. apply skipn_app_le. lia.
    + inversion Hne as [|? ? Hcne Hne']; subst. cbn [map app concat] in *. cbn [andb].
      destruct (Nat.leb_spec frame_cap n) as [Hc|Hc]; cbn [raw_read].
      * destruct (skipn n c) as [|y c'] eqn:Es.
        -- exists c, (concat cs ++ l), (BR [] frame_cap (map Data cs ++ Data (l ++ extra) :: rest)).
           repeat split; auto.
           ++ apply (f_equal (@length _)) in Es. rewrite skipn_length in Es. simpl in Es. lia.
           ++ now rewrite app_assoc.
           ++ left. exists cs, l. cbn. repeat split; auto.
        -- exists (firstn n c), ((y :: c') ++ concat cs ++ l), (BR [] frame_cap (Data (y :: c') :: map Data cs ++ Data (l ++ extra) :: rest)).
           repeat split; auto.
           ++ destruct n; [lia|]. destruct c; [congruence|discriminate].
           ++ rewrite firstn_length. lia.
           ++ rewrite <- Es, app_assoc, firstn_skipn, <- app_assoc. reflexivity.
           ++ left. exists ((y :: c') :: cs), l. cbn [br_in map app concat]. repeat split; auto.
              ** constructor; [discriminate|auto].
              ** cbn. now rewrite app_assoc.
      * destruct (skipn frame_cap c) as [|y c'] eqn:Es; cbn [br_cap br_in].
        -- exists (firstn n c), (skipn n c ++ concat cs ++ l),
             (BR (skipn n c) frame_cap (map Data cs ++ Data (l ++ extra) :: rest)).
           repeat split; auto.
           ++ destruct n; [lia|]. destruct c; [congruence|discriminate].
           ++ rewrite firstn_length. lia.
           ++ now rewrite app_assoc, firstn_skipn, app_assoc.
           ++ left. exists cs, l. cbn. repeat split; auto.
        -- exists (firstn n (firstn frame_cap c)), (skipn n (firstn frame_cap c) ++ (y :: c') ++ concat cs ++ l),
             (BR (skipn n (firstn frame_cap c)) frame_cap (Data (y :: c') :: map Data cs ++ Data (l ++ extra) :: rest)).
           assert (frame_cap < length c) as Hlc.
           { apply (f_equal (@length _)) in Es. rewrite skipn_length in Es. simpl in Es. lia. }
           assert (length (firstn n (firstn frame_cap c)) = n) as Hfl by (rewrite !firstn_length; lia).
           repeat split; auto.
           ++ intros E. rewrite E in Hfl. simpl in Hfl. lia.
           ++ lia.
           ++ rewrite (app_assoc (firstn n _)), firstn_skipn, <- Es. rewrite app_assoc, firstn_skipn.
              now rewrite app_assoc.
           ++ left. exists ((y :: c') :: cs), l. cbn [br_in br_buf map app concat]. repeat split; auto.
              ** constructor; [discriminate|auto].
              ** cbn. now rewrite app_assoc.
  - cbn [andb br_cap br_in]. set (B := x :: buf) in *.
    destruct Hst as [(cs & l & -> & Hne & Hl & Hle & ->) | [-> E]].
    + exists (firstn n B), (skipn n B ++ concat cs ++ l), (BR (skipn n B) frame_cap (map Data cs ++ Data (l ++ extra) :: rest)).
      repeat split; auto.
      * destruct n; [lia|]. discriminate.
      * rewrite firstn_length. lia.
      * rewrite (app_assoc (firstn n B)), firstn_skipn. reflexivity.
      * left. exists cs, l. cbn. repeat split; auto.
    + exists (firstn n rem), (skipn n rem), (BR (skipn n B) frame_cap rest).
      rewrite E. rewrite firstn_app_le by lia. repeat split.
      * destruct n; [lia|]. destruct rem; [simpl in Hn; lia|discriminate].
      * rewrite firstn_length. lia.
      * now rewrite firstn_skipn.
      * right. cbn [br_in br_buf]. split; [reflexivity|]. apply skipn_app_le. lia.
Qed.

Lemma edge_exact_loop extra rest fuel n acc b rem r b' : edge extra rest b rem -> n <= length rem ->
  read_exact_loop fuel n acc b = (Ok r, b') ->
  exists d rem', r = acc ++ d /\ length d = n /\ rem = d ++ rem' /\ edge extra rest b' rem'.
Proof.
  revert n acc b rem. induction fuel as [|fuel IH]; intros [|n] acc b rem He Hn; cbn [read_exact_loop].
  1,3: intros [= <- <-]; exists [], rem; rewrite app_nil_r; auto.
  { discriminate. }
  destruct (edge_read extra rest b rem (S n) He) as (d & rem' & b1 & -> & Hd & Hl & -> & He'); [lia|].
  destruct d as [|y d]; [congruence|]. intros H. rewrite app_length in Hn.
  destruct (IH (S n - length (y :: d)) (acc ++ y :: d) b1 rem' He' ltac:(lia) H) as (d2 & rem2 & -> & Hl2 & -> & He2).
  exists ((y :: d) ++ d2), rem2. rewrite <- !app_assoc. split; [reflexivity|]. split; [rewrite app_length; lia|]. split; [reflexivity|exact He2].
Qed.

Lemma edge_take_loop extra rest fuel sz i limit acc b rem r b' : (forall j, 0 < sz j) -> edge extra rest b rem ->
  (limit <= N.of_nat (length rem))%N -> take_to_end_loop fuel sz i limit acc b = (Ok r, b') ->
  exists d rem', r = acc ++ d /\ N.of_nat (length d) = limit /\ rem = d ++ rem' /\ edge extra rest b' rem'.
Proof.
  intros Hsz. revert i limit acc b rem. induction fuel as [|fuel IH]; intros i limit acc b rem He Hn; cbn [take_to_end_loop];
    destruct (N.eqb_spec limit 0) as [->|Hl0]; try discriminate.
  1,2: intros [= <- <-]; exists [], rem; rewrite app_nil_r; auto.
  set (req := if (limit <? N.of_nat (sz i))%N then N.to_nat limit else sz i).
  assert (0 < req /\ req <= N.to_nat limit) as [Hreq Hreql].
  { unfold req. pose proof (Hsz i). destruct (N.ltb_spec limit (N.of_nat (sz i))); lia. }
  destruct (edge_read extra rest b rem req He) as (d & rem' & b1 & -> & Hd & Hl & -> & He'); [lia|].
  destruct d as [|y d]; [congruence|]. intros H. rewrite app_length in Hn.
  destruct (IH (S i) (limit - N.of_nat (length (y :: d)))%N (acc ++ y :: d) b1 rem' He' ltac:(lia) H) as (d2 & rem2 & -> & Hl2 & -> & He2).
  exists ((y :: d) ++ d2), rem2. rewrite <- !app_assoc. split; [reflexivity|]. split; [rewrite app_length; lia|]. split; [reflexivity|exact He2].
Qed.

Lemma edge_length extra rest fm n masked b tail r b' : form_fits fm n ->
  edge extra rest b (form_ext fm n ++ tail) ->
  read_length (n2b (flag masked 128 + form_field fm n)) b = (Ok r, b') -> r = n /\ edge extra rest b' tail.
Proof.
  intros Hfit He. unfold read_length. destruct (second_byte masked (form_field fm n) (form_field_lt fm n Hfit)) as [_ ->].
  assert (forall k, form_len fm = k -> (n < 256 ^ N.of_nat k)%N -> form_ext fm n = net_bytes k n ->
    match read_exact k b with
    | (Ok d, b') => (Ok (read_be d), b')
    | (Err e, b') => (Err e, b') | (Panic, b') => (Panic, b') | (OutOfFuel, b') => (OutOfFuel, b')
    end = (Ok r, b') -> r = n /\ edge extra rest b' tail) as K.
  { intros k Hlen Hn Hext. destruct (read_exact k b) as [[d|e| |] b1] eqn:E; try discriminate. intros [= <- <-].
    destruct (edge_exact_loop extra rest (S (length (br_buf b) + stream_size (br_in b))) k [] b _ d b1 He) as (d' & rem' & -> & Hl & Hs & He');
      [rewrite app_length, form_ext_length; lia|exact E|].
    rewrite Hext in Hs. apply app_same_length in Hs as [<- ->]; [|rewrite net_bytes_length; auto].
    cbn [app]. rewrite read_be_value, net_value_bytes, N.mod_small by assumption. auto. }
  destruct fm; cbn [form_field form_len] in *.
  - assert (N.eqb n 126 = false) as -> by (simpl in Hfit; lia).
    assert (N.eqb n 127 = false) as -> by (simpl in Hfit; lia). intros [= <- <-]. auto.
  - exact (K 2 eq_refl Hfit eq_refl).
  - apply (K 8); try reflexivity. simpl in Hfit. cbn. lia.
Qed.

Lemma edge_done extra rest b : edge extra rest b [] -> br_in b = rest.
Proof.
  intros [_ [(cs & l & _ & _ & Hl & _ & E) | [E _]]]; [|exact E].
  symmetry in E. apply app_eq_nil in E as [_ E]. apply app_eq_nil in E as [_ E]. congruence.
Qed.

(** If the parse succeeds, what is left is [rest]: [extra] is gone. *)
Lemma edge_parse m fm f s extra rest r s' : machine_ok m -> client_frame m fm f -> rf_payload f <> [] ->
  edge extra rest (BR [] frame_cap s) (rfc_encode fm f) -> frame_parse m s = (Ok r, s') -> s' = rest.
Proof.
  intros Hm [(Hrsv & Hop & Hfit & Hkey) [Hmask Hlen]] Hne He. pose proof (proj2 (proj2 Hm)) as Hsz.
  unfold is_masked in Hmask. destruct (rf_key f) as [k|] eqn:Ek; [|discriminate].
  rewrite (rfc_encode_masked fm f k Ek) in He.
  set (n := N.of_nat (length (rf_payload f))) in *.
  assert (0 < n)%N as Hpos by (unfold n; destruct (rf_payload f); [congruence|cbn [length]; lia]).
  unfold rfc_head in He. rewrite <- app_assoc in He. unfold frame_parse.
  destruct (edge_read extra rest _ _ 2 He) as (d & rem' & b1 & -> & Hd & Hl & Hs & He1); [simpl; lia|].
  destruct d as [|a [|b [|c d]]]; try discriminate. apply app_same_length in Hs as [Hs0 <-]; [|reflexivity].
  match type of Hs0 with [?X; ?Y] = _ => assert (X = a /\ Y = b) as [<- <-] by (split; congruence) end.
  destruct (opcode_of _); [|discriminate].
  destruct (read_length _ b1) as [[len|e| |] b2] eqn:E2; try discriminate.
  destruct (edge_length extra rest fm n true b1 _ len b2 Hfit He1 E2) as [-> He2].
  destruct (second_byte true (form_field fm n) (form_field_lt fm n Hfit)) as [H6 _].
  rewrite H6. assert (N.ltb 0 n = true) as -> by lia. cbn [andb negb].
  unfold read_payload.
  destruct (edge_read extra rest b2 _ 4 He2) as (kd & rem3 & b3 & -> & Hd3 & Hl3 & Hs3 & He3).
  { rewrite app_length. simpl in Hkey. lia. }
  destruct kd as [|k0 [|k1 [|k2 [|k3 [|k4 kd]]]]]; try discriminate.
  apply app_same_length in Hs3 as [-> <-]; [|exact Hkey].
  destruct (N.ltb _ _); [discriminate|].
  destruct (take_to_end (read_sizes m) n b3) as [[enc|e| |] b4] eqn:E4; try discriminate.
  destruct (edge_take_loop extra rest (S (length (br_buf b3) + stream_size (br_in b3))) (read_sizes m) 0 n [] b3 _ enc b4 Hsz He3)
    as (d4 & rem4 & -> & Hl4 & Hs4 & He4); [rewrite xor_key_length; unfold n; lia|exact E4|].
  assert (rem4 = []) as ->.
  { apply (f_equal (@length _)) in Hs4. rewrite app_length, xor_key_length in Hs4. unfold n in Hl4.
    destruct rem4; [reflexivity|simpl in Hs4; lia]. }
  apply edge_done in He4. cbv zeta.
  repeat match goal with |- context [if ?c then _ else _] => destruct c end; try discriminate; intros [= _ <-]; exact He4.
Qed.

(** Cut points inside the frame are those of the segments without [extra]. *)
Lemma cut_at_extra cs l extra p : p < length (concat (cs ++ [l])) ->
  cut_at (cs ++ [l ++ extra]) p -> cut_at (cs ++ [l]) p.
Proof.
  intros Hp (c1 & c2 & E & Hl). destruct c2 as [|x c2] using rev_ind.
  - rewrite app_nil_r in E. subst c1. rewrite !concat_app, !app_length in *. simpl in *. rewrite !app_nil_r, ?app_length in *. lia.
  - rewrite app_assoc in E. apply app_inj_tail in E as [-> <-]. exists c1, (c2 ++ [l]). now rewrite app_assoc.
Qed.

(** A frame whose last segment also carries [extra]: the frame is delivered and exactly [extra] is
    lost. *)
Lemma parse_coalesced m fm f cs l extra rest :
  machine_ok m -> client_frame m fm f -> well_cut fm f (cs ++ [l]) -> length (l ++ extra) <= frame_cap ->
  frame_parse m (map Data cs ++ Data (l ++ extra) :: rest) = (Ok (frame_view f), rest).
Proof.
  intros Hm Hc [[Hne Hcs] Hw] Hle. pose proof frame_cap_big as Hbig.
  apply Forall_app in Hne as [Hne Hl]. inversion Hl as [|? ? Hl' _]; subst.
  assert (length (l ++ extra) <> 0) as Hle0 by (destruct l; [congruence|simpl; lia]).
  assert (l ++ extra <> []) as Hnil by (destruct l; [congruence|discriminate]).
  pose proof Hc as [(Hrsv & Hop & Hfit & Hkey) [Hmask Hlen]].
  unfold is_masked in Hmask. destruct (rf_key f) as [k|] eqn:Ek; [|discriminate].
  pose proof (rfc_encode_masked fm f k Ek) as Henc.
  assert (length (rfc_encode fm f) = head_len fm + 4 + length (rf_payload f)) as Hel.
  { rewrite Henc. unfold rfc_head. rewrite !app_length, form_ext_length, xor_key_length. unfold head_len. simpl in Hkey. cbn [length]. lia. }
  assert (segments (cs ++ [l ++ extra]) (rfc_encode fm f ++ extra)) as Hseg.
  { split; [apply Forall_app; auto|]. rewrite <- Hcs, !concat_app. simpl. now rewrite !app_nil_r, app_assoc. }
  replace (map Data cs ++ Data (l ++ extra) :: rest) with (map Data (cs ++ [l ++ extra]) ++ rest)
    by (rewrite map_app, <- app_assoc; reflexivity).
  destruct (rf_payload f) as [|x pl] eqn:Hp.
  - (* one segment; the header is read from the buffer, which then holds the key and [extra] *)
    assert (cs = []) as -> by (destruct cs as [|c cs]; [reflexivity|injection Hw as _ Hw; destruct cs; discriminate]).
    injection Hw as ->. cbn [app map] in *.
    set (S0 := rfc_encode fm f ++ extra) in *.
    assert (segments [S0] (rfc_head fm (rf_fin f) (rf_rsv f) (rf_op f) true 0 ++ (k ++ extra))) as Hs.
    { split; [apply Hseg|]. unfold S0. rewrite Henc. simpl. rewrite !app_nil_r, <- app_assoc. reflexivity. }
    assert (length S0 = head_len fm + (4 + length extra)) as HS0 by (unfold S0; rewrite app_length, Hel; simpl; lia).
    assert (~ cut_at [S0] 1) as H1.
    { intros (c1 & c2 & E & E2). destruct c1 as [|y [|z c1]]; [discriminate| |injection E as _ E; destruct c1; discriminate].
      injection E as <- _. cbn [concat] in E2. rewrite app_nil_r in E2. unfold head_len in HS0. lia. }
    destruct (parse_head m fm _ _ _ _ _ _ [S0] rest Hrsv Hop Hfit Hs H1) as (buf & cs' & A & B & C & D).
    cbn [map app] in D. rewrite D. unfold after_head, frame_view. rewrite Hp. cbn [length N.of_nat N.ltb andb br_in].
    destruct cs' as [|c cs']; [reflexivity|]. exfalso.
    inversion A as [|? ? Hcn Hrest]; subst.
    assert (length buf + length (concat (c :: cs')) = 4 + length extra) as Hl2.
    { rewrite <- app_length, B, app_length. simpl in Hkey. lia. }
    assert (0 < length (concat (c :: cs'))) as Hcpos by (simpl; rewrite app_length; destruct c; [congruence|simpl; lia]).
    assert (cut_at [S0] (head_len fm + length buf)) as (c1 & c2 & E & E2).
    { apply C; [lia|]. exists [], (c :: cs'). split; [reflexivity|]. simpl. lia. }
    destruct c1 as [|y [|z c1]].
    + simpl in E2. unfold head_len in E2. lia.
    + injection E as <- _. cbn [concat] in E2. rewrite app_nil_r in E2. lia.
    + injection E as _ E. destruct c1; discriminate.
  - destruct Hw as [W1 W2]. rewrite <- Hp in *.
    assert (rf_payload f <> []) as Hpne by (rewrite Hp; discriminate).
    assert (forall p, p < length (rfc_encode fm f) -> ~ cut_at (cs ++ [l]) p -> ~ cut_at (cs ++ [l ++ extra]) p) as Hcuts.
    { intros p Hp1 Hno Hyes. apply Hno. apply cut_at_extra with (extra := extra); [|exact Hyes]. rewrite <- Hcs in Hp1. exact Hp1. }
    set (n := N.of_nat (length (rf_payload f))) in *.
    assert (0 < n)%N as Hpos by (unfold n; rewrite Hp; cbn [length]; lia).
    assert (0 < length (rf_payload f)) as Hposn by (rewrite Hp; cbn [length]; lia).
    assert (head_len fm <= 10) as Hhl by (unfold head_len; destruct fm; simpl; lia).
    assert (exists s', frame_parse m (map Data (cs ++ [l ++ extra]) ++ rest) = (Ok (frame_view f), s')) as (s' & E).
    { assert (segments (cs ++ [l ++ extra]) (rfc_head fm (rf_fin f) (rf_rsv f) (rf_op f) true n ++ (k ++ (xor_key k (rf_payload f) ++ extra)))) as Hs.
      { destruct Hseg as [S1 S2]. split; [exact S1|]. rewrite S2, Henc, <- !app_assoc. reflexivity. }
      destruct (parse_head m fm _ _ _ _ _ _ _ rest Hrsv Hop Hfit Hs) as (buf & cs' & A & B & C & D).
      { apply Hcuts; [|exact W1]. unfold head_len in Hel. lia. }
      rewrite D. unfold after_head. assert (N.ltb 0 n = true) as -> by lia. cbn [andb negb].
      destruct (read_key m (rf_fin f) n k (xor_key k (rf_payload f) ++ extra) cs' rest buf (head_len fm) Hkey A B) as [K _].
      destruct K as (k0 & k1 & k2 & k3 & buf' & cs2 & -> & A2 & B2 & ->).
      { intros i Hi Hcut. apply (Hcuts (head_len fm + i)); [lia|apply (W2 i Hi)|]. apply C; [lia|]. exact Hcut. }
      unfold payload_done. rewrite as_usize_small by assumption.
      assert (N.ltb (max_alloc m) n = false) as Hlt by lia. rewrite Hlt.
      set (enc := xor_key [k0; k1; k2; k3] (rf_payload f)) in *.
      assert (length enc = length (rf_payload f)) as Hle2 by apply xor_key_length.
      assert (rep false (BR buf' frame_cap (map Data cs2 ++ rest)) (enc ++ extra) rest) as Hrep.
      { exists (concat cs2). split; [auto|]. now apply delivers_chunks. }
      destruct (take_to_end_rep false (read_sizes m) n _ (enc ++ extra) rest (proj2 (proj2 Hm)) Hrep)
        as (b' & -> & _ & _); [cbn [br_cap]; lia|rewrite app_length; unfold n; lia|].
      unfold n. rewrite Nat2N.id, firstn_app_le by lia. rewrite <- Hle2, firstn_all. cbv zeta. rewrite Hle2. fold n.
      rewrite Hlt, N.eqb_refl. cbn [negb]. rewrite unmask_xor.
      change (xor_from [k0; k1; k2; k3] 0 enc) with (xor_key [k0; k1; k2; k3] enc). unfold enc. rewrite xor_key_twice.
      eexists. reflexivity. }
    rewrite E. f_equal.
    apply (edge_parse m fm f (map Data (cs ++ [l ++ extra]) ++ rest) extra rest (frame_view f) s' Hm Hc Hpne); [|exact E].
    split; [reflexivity|]. left. exists cs, l. cbn [br_in br_buf app]. repeat split; auto.
    + rewrite map_app, <- app_assoc. reflexivity.
    + rewrite <- Hcs, concat_app. simpl. now rewrite app_nil_r.
Qed.

(** An empty frame: only its header is read; with it goes the rest of the segment holding the last
    byte of the header. *)
Lemma edge_parse_empty m fm fin rsv op masked s extra rest r s' :
  form_fits fm 0 -> edge extra rest (BR [] frame_cap s) (rfc_head fm fin rsv op masked 0) ->
  frame_parse m s = (Ok r, s') -> s' = rest.
Proof.
  intros Hfit He. unfold frame_parse.
  destruct (edge_read extra rest _ _ 2 He) as (d & rem' & b1 & -> & Hd & Hl & Hs & He1); [simpl; lia|].
  destruct d as [|a [|b [|c d]]]; try discriminate. unfold rfc_head in Hs.
  apply app_same_length in Hs as [Hs0 <-]; [|reflexivity].
  match type of Hs0 with [?X; ?Y] = _ => assert (X = a /\ Y = b) as [<- <-] by (split; congruence) end.
  destruct (opcode_of _); [|discriminate].
  destruct (read_length _ b1) as [[len|e| |] b2] eqn:E2; try discriminate.
  rewrite <- (app_nil_r (form_ext fm 0)) in He1.
  destruct (edge_length extra rest fm 0 masked b1 _ len b2 Hfit He1 E2) as [-> He2].
  cbn [N.ltb andb N.compare]. apply edge_done in He2. intros [= _ <-]. exact He2.
Qed.

Lemma parse_empty_exact m fm fin rsv op masked tail c1 l c2 rest :
  (rsv < 8)%N -> (op < 16)%N -> form_fits fm 0 ->
  segments (c1 ++ l :: c2) (rfc_head fm fin rsv op masked 0 ++ tail) -> ~ cut_at (c1 ++ l :: c2) 1 ->
  length (concat c1) < head_len fm <= length (concat c1) + length l -> length l <= frame_cap ->
  frame_parse m (map Data (c1 ++ l :: c2) ++ rest) =
  (Ok (Frame fin (N.testbit rsv 2) (N.testbit rsv 1) (N.testbit rsv 0) (opcode_named op) []), map Data c2 ++ rest).
Proof.
  intros Hr Ho Hfit Hs H1 Hpos Hl.
  destruct (parse_head m fm fin rsv op masked 0 tail _ rest Hr Ho Hfit Hs H1) as (buf & cs' & _ & _ & _ & D).
  destruct (frame_parse m (map Data (c1 ++ l :: c2) ++ rest)) as [r s'] eqn:E.
  assert (r = Ok (Frame fin (N.testbit rsv 2) (N.testbit rsv 1) (N.testbit rsv 0) (opcode_named op) [])) as ->.
  { unfold after_head in D. assert (N.ltb 0 0 = false) as Z by reflexivity. rewrite Z in D. cbn [andb] in D.
    injection D as -> _. reflexivity. }
  f_equal. clear D. set (k := head_len fm - length (concat c1)) in *.
  destruct Hs as [Hne Hcs]. apply Forall_app in Hne as [Hne1 Hne2]. inversion Hne2 as [|? ? Hlne Hne3]; subst.
  apply (edge_parse_empty m fm fin rsv op masked (map Data (c1 ++ l :: c2) ++ rest) (skipn k l) (map Data c2 ++ rest) _ s' Hfit)
    with (2 := E).
  split; [reflexivity|]. left. exists c1, (firstn k l). cbn [br_in br_buf app].
  rewrite firstn_skipn. split; [|split; [exact Hne1|split; [|split; [exact Hl|]]]].
  - rewrite map_app, <- app_assoc. reflexivity.
  - unfold k. destruct (head_len fm - length (concat c1)) eqn:Ek; [lia|]. destruct l; [congruence|discriminate].
  - assert (length (rfc_head fm fin rsv op masked 0) = head_len fm) as Hh.
    { unfold rfc_head. rewrite app_length, form_ext_length. reflexivity. }
    rewrite concat_app in Hcs. cbn [concat] in Hcs.
    rewrite <- (firstn_skipn k l), <- !app_assoc in Hcs. rewrite (app_assoc (concat c1)) in Hcs.
    apply app_same_length in Hcs as [Hcs _]; [symmetry; exact Hcs|].
    rewrite app_length, firstn_length, Hh. unfold k. lia.
Qed.
