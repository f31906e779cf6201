(** Properties of the transport model. *)
From Verif Require Import Base Io.

(** [delivers intr s bytes rest]: the transport [s] yields [bytes] in some segmentation (and, if
    [intr], with interrupted reads in between) and then behaves like [rest]. *)
Inductive delivers (intr : bool) : stream -> str -> stream -> Prop :=
| dv_nil rest : delivers intr rest [] rest
| dv_data d s bytes rest :
    d <> [] -> delivers intr s bytes rest -> delivers intr (Data d :: s) (d ++ bytes) rest
| dv_intr s bytes rest :
    intr = true -> delivers intr s bytes rest -> delivers intr (Fail EInterrupted :: s) bytes rest.

(** The reader state [b] still has [rem] to give before [rest]. *)
Definition rep (intr : bool) (b : bufreader) (rem : str) (rest : stream) : Prop :=
  exists bytes, rem = br_buf b ++ bytes /\ delivers intr (br_in b) bytes rest.

Lemma delivers_false_nil s rest : delivers false s [] rest -> s = rest.
Proof.
  intros H. inversion H as [r E1 E2|d s' bytes r Hne Hd E1 E2|]; subst; auto; try discriminate.
  destruct d; [congruence|discriminate].
Qed.

Lemma delivers_chunks cs rest :
  Forall (fun c => c <> []) cs -> delivers false (map Data cs ++ rest) (concat cs) rest.
Proof. induction 1 as [|c cs Hc Hcs IH]; simpl; constructor; auto. Qed.

Lemma delivers_mono s bytes rest : delivers false s bytes rest -> delivers true s bytes rest.
Proof. induction 1; constructor; auto. Qed.

Lemma rep_mono b rem rest : rep false b rem rest -> rep true b rem rest.
Proof. intros (bytes & -> & H). exists bytes. split; auto. now apply delivers_mono. Qed.

Lemma rep_false_nil b rest : rep false b [] rest -> br_buf b = [] /\ br_in b = rest.
Proof.
  intros (bytes & E & H). symmetry in E. apply app_eq_nil in E as [-> ->].
  split; auto. now apply delivers_false_nil.
Qed.

Lemma rep_skip intr d n bytes cap s rest :
  delivers intr s bytes rest ->
  rep intr (BR (skipn n d) cap s) (skipn n d ++ bytes) rest.
Proof. intros H. exists bytes. auto. Qed.

Lemma skipn_app_le {A} n (a b : list A) : n <= length a -> skipn n (a ++ b) = skipn n a ++ b.
Proof. intros H. rewrite skipn_app. replace (n - length a) with 0 by lia. reflexivity. Qed.
Lemma firstn_app_le {A} n (a b : list A) : n <= length a -> firstn n (a ++ b) = firstn n a.
Proof. intros H. rewrite firstn_app. replace (n - length a) with 0 by lia. simpl. now rewrite app_nil_r. Qed.

(** One transport read of a delivering stream: a non-empty prefix, or an interruption. *)
Lemma raw_read_delivers intr n s bytes rest :
  delivers intr s bytes rest -> bytes <> [] -> 0 < n ->
  (exists k, 0 < k <= n /\ k <= length bytes /\ fst (raw_read n s) = Ok (firstn k bytes) /\
             delivers intr (snd (raw_read n s)) (skipn k bytes) rest) \/
  (intr = true /\ fst (raw_read n s) = Err EInterrupted /\
   delivers intr (snd (raw_read n s)) bytes rest /\ stream_size (snd (raw_read n s)) < stream_size s).
Proof.
  intros H Hb Hn. destruct H as [rest|d s bytes rest Hd H|s bytes rest Hi H].
  - congruence.
  - left. simpl. destruct (skipn n d) as [|y d'] eqn:Hs.
    + assert (length d <= n).
      { apply (f_equal (@length _)) in Hs. rewrite skipn_length in Hs. simpl in Hs. lia. }
      exists (length d). simpl. rewrite app_length, skipn_app, firstn_app, skipn_all, firstn_all, Nat.sub_diag.
      simpl. rewrite app_nil_r. repeat split; auto; try lia. destruct d; simpl in *; [congruence|lia].
    + assert (n < length d).
      { apply (f_equal (@length _)) in Hs. rewrite skipn_length in Hs. simpl in Hs. lia. }
      exists n. simpl. rewrite app_length. repeat split; try lia.
      * now rewrite firstn_app_le by lia.
      * rewrite skipn_app_le by lia. rewrite Hs. constructor; [discriminate|exact H].
  - right. simpl. repeat split; auto.
Qed.

Lemma raw_read_size n s r s' : raw_read n s = (r, s') ->
  (s = [] /\ s' = [] /\ r = Ok []) \/
  (exists e, r = Err e /\ stream_size s' < stream_size s) \/
  (exists d, r = Ok d /\ length d + stream_size s' <= stream_size s /\
             (d <> [] \/ stream_size s' < stream_size s \/ n = 0)).
Proof.
  unfold raw_read. destruct s as [|[d|e] s].
  - intros [= <- <-]. left. auto.
  - destruct (skipn n d) as [|y d'] eqn:Hs.
    + intros [= <- <-]. right. right. exists d. repeat split; simpl; try lia.
    + intros [= <- <-]. right. right. exists (firstn n d). repeat split.
      * simpl. assert (length d = length (firstn n d) + length (y :: d')) as ->.
        { rewrite <- Hs, <- app_length, firstn_skipn. reflexivity. }
        simpl. lia.
      * destruct n as [|n]; [right; right; reflexivity|]. left.
        destruct d; [discriminate|simpl; discriminate].
  - intros [= <- <-]. right. left. exists e. split; [reflexivity|simpl; lia].
Qed.

(** [br_read] on a delivering reader. *)
Lemma br_read_rep intr n b rem rest :
  rep intr b rem rest -> rem <> [] -> 0 < n -> 0 < br_cap b ->
  br_cap (snd (br_read n b)) = br_cap b /\
  ((exists k, 0 < k <= n /\ k <= length rem /\ fst (br_read n b) = Ok (firstn k rem) /\
              rep intr (snd (br_read n b)) (skipn k rem) rest) \/
   (intr = true /\ fst (br_read n b) = Err EInterrupted /\
    rep intr (snd (br_read n b)) rem rest /\
    br_buf b = [] /\ br_buf (snd (br_read n b)) = [] /\
    stream_size (br_in (snd (br_read n b))) < stream_size (br_in b))).
Proof.
  intros (bytes & -> & Hd) Hr Hn Hc. unfold br_read, br_fill. destruct (br_buf b) as [|c buf] eqn:Hb.
  - cbn [app] in *. destruct (Nat.leb_spec (br_cap b) n) as [Hle|Hlt]; cbn [andb].
    + pose proof (raw_read_delivers intr n (br_in b) bytes rest Hd Hr Hn) as
        [(k & Hk & Hkl & Hf & Hs) | (Hi & Hf & Hs & Hz)];
      destruct (raw_read n (br_in b)) as [r s'] eqn:E; cbn [fst snd] in *; subst r.
      * split; [reflexivity|]. left. exists k. repeat split; auto; try lia. exists (skipn k bytes). auto.
      * split; [reflexivity|]. right. repeat split; auto. exists bytes. auto.
    + pose proof (raw_read_delivers intr (br_cap b) (br_in b) bytes rest Hd Hr Hc) as
        [(k & Hk & Hkl & Hf & Hs) | (Hi & Hf & Hs & Hz)];
      destruct (raw_read (br_cap b) (br_in b)) as [r s'] eqn:E; cbn [fst snd] in *; subst r.
      * cbn [fst snd br_cap br_in]. split; [reflexivity|]. left.
        exists (Nat.min n k). rewrite firstn_firstn. repeat split; try lia.
        exists (skipn k bytes). cbn [br_buf br_in]. split; [|exact Hs].
        rewrite <- (firstn_skipn k bytes) at 1.
        destruct (Nat.le_ge_cases n k) as [L|L].
        -- rewrite Nat.min_l by lia. rewrite skipn_app_le; [reflexivity|].
           rewrite firstn_length. lia.
        -- rewrite Nat.min_r by lia. rewrite skipn_app_le by (rewrite firstn_length; lia).
           rewrite (skipn_all2 (n:=k) (firstn k bytes)) by (rewrite firstn_length; lia).
           rewrite (skipn_all2 (n:=n) (firstn k bytes)) by (rewrite firstn_length; lia). reflexivity.
      * cbn [fst snd br_cap br_in br_buf]. split; [reflexivity|]. right. repeat split; auto.
        exists bytes. auto.
  - cbn [andb fst snd br_cap]. split; [reflexivity|]. left.
    exists (Nat.min n (length (c :: buf))). rewrite app_length. repeat split; try (simpl; lia).
    + rewrite firstn_app_le by lia. f_equal.
      destruct (Nat.le_ge_cases n (length (c :: buf))) as [L|L].
      * now rewrite Nat.min_l.
      * rewrite Nat.min_r by lia. rewrite firstn_all. now rewrite firstn_all2.
    + exists bytes. cbn [br_buf br_in]. split; [|exact Hd].
      rewrite skipn_app_le by lia. f_equal.
      destruct (Nat.le_ge_cases n (length (c :: buf))) as [L|L].
      * now rewrite Nat.min_l.
      * rewrite Nat.min_r by lia. rewrite !skipn_all2; auto; lia.
Qed.

(** What any [br_read] can do, whatever the stream. *)
Lemma br_read_any n b :
  br_cap (snd (br_read n b)) = br_cap b /\
  ((exists d, fst (br_read n b) = Ok d /\ length d <= n /\
      length d + (length (br_buf (snd (br_read n b))) + stream_size (br_in (snd (br_read n b))))
        <= length (br_buf b) + stream_size (br_in b)) \/
   (exists e, fst (br_read n b) = Err e /\
      length (br_buf (snd (br_read n b))) + stream_size (br_in (snd (br_read n b)))
        < length (br_buf b) + stream_size (br_in b))).
Proof.
  unfold br_read, br_fill. destruct (br_buf b) as [|c buf] eqn:Hb.
  - destruct (Nat.leb_spec (br_cap b) n) as [Hle|Hlt]; cbn [andb].
    + destruct (raw_read n (br_in b)) as [r s'] eqn:E. pose proof (raw_read_size _ _ _ _ E) as S.
      cbn [fst snd br_cap br_buf br_in length]. split; [reflexivity|].
      assert (forall d, r = Ok d -> length d <= n) as HL.
      { intros d ->. unfold raw_read in E. destruct (br_in b) as [|[d0|e] s]; try congruence.
        - injection E as <- _. simpl. lia.
        - destruct (skipn n d0) as [|y d'] eqn:Hs.
          + injection E as <- _. apply (f_equal (@length _)) in Hs. rewrite skipn_length in Hs. simpl in Hs. lia.
          + injection E as <- _. rewrite firstn_length. lia. }
      destruct S as [(H1 & -> & ->) | [(e & -> & Hz) | (d & -> & Hz & _)]].
      * left. exists []. split; [reflexivity|]. simpl. lia.
      * right. exists e. split; auto.
      * left. exists d. split; [reflexivity|]. split; [auto|lia].
    + destruct (raw_read (br_cap b) (br_in b)) as [r s'] eqn:E. pose proof (raw_read_size _ _ _ _ E) as S.
      destruct S as [(H1 & -> & ->) | [(e & -> & Hz) | (d & -> & Hz & _)]]; cbn [fst snd br_cap br_buf br_in length].
      * split; [reflexivity|]. left. exists (firstn n []). rewrite firstn_nil, skipn_nil. split; [reflexivity|]. simpl. lia.
      * split; [reflexivity|]. right. exists e. split; auto.
      * split; [reflexivity|]. left. exists (firstn n d). split; [reflexivity|].
        rewrite firstn_length, skipn_length. lia.
  - cbn [andb fst snd br_cap br_buf br_in]. split; [reflexivity|]. left. exists (firstn n (c :: buf)).
    split; [reflexivity|]. rewrite firstn_length, skipn_length. lia.
Qed.

Lemma br_read_not_panic n b : fst (br_read n b) <> Panic /\ fst (br_read n b) <> OutOfFuel.
Proof.
  destruct (br_read_any n b) as [_ [(d & -> & _) | (e & -> & _)]]; split; discriminate.
Qed.

(** An end-of-file stays an end-of-file. *)
Lemma br_read_eof n cap : br_read n (BR [] cap []) = (Ok [], BR [] cap []).
Proof.
  unfold br_read, br_fill. simpl. destruct (Nat.leb cap n); simpl; [reflexivity|].
  now rewrite firstn_nil, skipn_nil.
Qed.

(* ------------------------------------------------------------------ *)
(** ** read_exact *)

Lemma read_exact_loop_rep intr fuel n acc b rem rest :
  rep intr b rem rest -> 0 < br_cap b -> n <= length rem ->
  length (br_buf b) + stream_size (br_in b) < fuel ->
  exists b', read_exact_loop fuel n acc b = (Ok (acc ++ firstn n rem), b') /\
             rep intr b' (skipn n rem) rest /\ br_cap b' = br_cap b.
Proof.
  revert n acc b rem. induction fuel as [|fuel IH]; intros n acc b rem Hrep Hc Hn Hf; [lia|].
  destruct n as [|n].
  { exists b. simpl. rewrite app_nil_r. auto. }
  assert (rem <> []) as Hne by (destruct rem; simpl in Hn; [lia|discriminate]).
  pose proof (br_read_rep intr (S n) b rem rest Hrep Hne ltac:(lia) Hc) as [Hcap Hcase].
  pose proof (br_read_any (S n) b) as [_ Hany].
  cbn [read_exact_loop].
  destruct (br_read (S n) b) as [r b1] eqn:E. cbn [fst snd] in *.
  destruct Hcase as [(k & Hk & Hkl & -> & Hr1) | (_ & -> & Hr1 & Hb0 & Hb1 & Hz)].
  - destruct (firstn k rem) as [|y d] eqn:Hd.
    { apply (f_equal (@length _)) in Hd. rewrite firstn_length in Hd. simpl in Hd. lia. }
    assert (length (y :: d) = k) as Hlen by (rewrite <- Hd, firstn_length; lia).
    destruct Hany as [(d' & [= <-] & _ & Hz) | (e & He & _)]; [|discriminate].
    destruct (IH (S n - length (y :: d)) (acc ++ y :: d) b1 (skipn k rem)) as (b' & Hl & Hr & Hcb).
    + exact Hr1.
    + lia.
    + rewrite skipn_length, Hlen. lia.
    + rewrite Hlen in Hz. lia.
    + exists b'. rewrite Hl. split; [|split].
      * f_equal. f_equal. rewrite <- app_assoc. f_equal. rewrite Hlen, <- Hd.
        rewrite <- firstn_add. f_equal. lia.
      * rewrite skipn_skipn_add in Hr. replace (k + (S n - length (y :: d))) with (S n) in Hr by lia. exact Hr.
      * congruence.
  - destruct (IH (S n) acc b1 rem) as (b' & Hl & Hr & Hcb); auto; try lia.
    + rewrite Hb0 in Hf. rewrite Hb1. simpl in *. lia.
    + exists b'. rewrite Hl. split; [reflexivity|split; [exact Hr|congruence]].
Qed.

Lemma read_exact_rep intr n b rem rest :
  rep intr b rem rest -> 0 < br_cap b -> n <= length rem ->
  exists b', read_exact n b = (Ok (firstn n rem), b') /\ rep intr b' (skipn n rem) rest /\ br_cap b' = br_cap b.
Proof.
  intros H1 H2 H3. unfold read_exact.
  destruct (read_exact_loop_rep intr (S (length (br_buf b) + stream_size (br_in b))) n [] b rem rest H1 H2 H3)
    as (b' & H); [lia|]. now exists b'.
Qed.

(** Totality of [read_exact]: exactly [n] bytes or an error. *)
Lemma read_exact_loop_total fuel n acc b :
  length (br_buf b) + stream_size (br_in b) < fuel ->
  (exists d, fst (read_exact_loop fuel n acc b) = Ok (acc ++ d) /\ length d = n) \/
  (exists e, fst (read_exact_loop fuel n acc b) = Err e).
Proof.
  revert n acc b. induction fuel as [|fuel IH]; intros n acc b Hf; [lia|].
  destruct n as [|n]; [left; exists []; simpl; rewrite app_nil_r; auto|].
  cbn [read_exact_loop]. pose proof (br_read_any (S n) b) as [_ Hany].
  destruct (br_read (S n) b) as [r b1]. cbn [fst snd] in *.
  destruct Hany as [(d & -> & Hd & Hz) | (e & -> & Hz)].
  - destruct d as [|y d]; [right; exists EOther; reflexivity|].
    destruct (IH (S n - length (y :: d)) (acc ++ y :: d) b1) as [(d' & -> & Hl) | (e & ->)].
    + simpl in Hz. lia.
    + left. exists ((y :: d) ++ d'). rewrite app_assoc. split; [reflexivity|]. rewrite app_length. lia.
    + right. now exists e.
  - destruct e; [|right; now exists EOther]. apply IH. lia.
Qed.

Lemma read_exact_total n b :
  (exists d, fst (read_exact n b) = Ok d /\ length d = n) \/ (exists e, fst (read_exact n b) = Err e).
Proof. apply (read_exact_loop_total _ n [] b). lia. Qed.

(* ------------------------------------------------------------------ *)
(** ** take(limit).read_to_end *)

Definition nmin (limit : N) (n : nat) : nat := if N.ltb limit (N.of_nat n) then N.to_nat limit else n.

Lemma take_loop_rep intr fuel sz i limit acc b rem rest :
  (forall j, 0 < sz j) -> rep intr b rem rest -> 0 < br_cap b -> (limit <= N.of_nat (length rem))%N ->
  length (br_buf b) + stream_size (br_in b) < fuel ->
  exists b', take_to_end_loop fuel sz i limit acc b = (Ok (acc ++ firstn (N.to_nat limit) rem), b') /\
             rep intr b' (skipn (N.to_nat limit) rem) rest /\ br_cap b' = br_cap b.
Proof.
  intros Hsz. revert i limit acc b rem.
  induction fuel as [|fuel IH]; intros i limit acc b rem Hrep Hc Hn Hf; [lia|].
  cbn [take_to_end_loop]. destruct (N.eqb_spec limit 0) as [->|Hl0].
  { exists b. simpl. rewrite app_nil_r. auto. }
  assert (rem <> []) as Hne by (destruct rem; simpl in Hn; [lia|discriminate]).
  set (req := if (limit <? N.of_nat (sz i))%N then N.to_nat limit else sz i).
  assert (0 < req /\ req <= N.to_nat limit) as [Hreq Hreql].
  { unfold req. pose proof (Hsz i). destruct (N.ltb_spec limit (N.of_nat (sz i))); lia. }
  pose proof (br_read_rep intr req b rem rest Hrep Hne Hreq Hc) as [Hcap Hcase].
  pose proof (br_read_any req b) as [_ Hany].
  destruct (br_read req b) as [r b1] eqn:E. cbn [fst snd] in *.
  destruct Hcase as [(k & Hk & Hkl & -> & Hr1) | (_ & -> & Hr1 & Hb0 & Hb1 & Hz)].
  - destruct (firstn k rem) as [|y d] eqn:Hd.
    { apply (f_equal (@length _)) in Hd. rewrite firstn_length in Hd. simpl in Hd. lia. }
    assert (length (y :: d) = k) as Hlen by (rewrite <- Hd, firstn_length; lia).
    destruct Hany as [(d' & [= <-] & _ & Hz) | (e & He & _)]; [|discriminate].
    destruct (IH (S i) (limit - N.of_nat (length (y :: d)))%N (acc ++ y :: d) b1 (skipn k rem)) as (b' & Hl & Hr & Hcb).
    + exact Hr1.
    + lia.
    + rewrite skipn_length, Hlen. lia.
    + rewrite Hlen in Hz. lia.
    + exists b'. rewrite Hl. split; [|split].
      * f_equal. f_equal. rewrite <- app_assoc. f_equal. rewrite Hlen, <- Hd.
        rewrite <- firstn_add. f_equal. lia.
      * rewrite skipn_skipn_add in Hr.
        replace (k + N.to_nat (limit - N.of_nat (length (y :: d)))) with (N.to_nat limit) in Hr by lia. exact Hr.
      * congruence.
  - destruct (IH (S i) limit acc b1 rem) as (b' & Hl & Hr & Hcb); auto; try lia.
    + rewrite Hb0 in Hf. rewrite Hb1. simpl in *. lia.
    + exists b'. rewrite Hl. split; [reflexivity|split; [exact Hr|congruence]].
Qed.

Lemma take_to_end_rep intr sz limit b rem rest :
  (forall j, 0 < sz j) -> rep intr b rem rest -> 0 < br_cap b -> (limit <= N.of_nat (length rem))%N ->
  exists b', take_to_end sz limit b = (Ok (firstn (N.to_nat limit) rem), b') /\
             rep intr b' (skipn (N.to_nat limit) rem) rest /\ br_cap b' = br_cap b.
Proof.
  intros H0 H1 H2 H3. unfold take_to_end.
  destruct (take_loop_rep intr (S (length (br_buf b) + stream_size (br_in b))) sz 0 limit [] b rem rest H0 H1 H2 H3)
    as (b' & H); [lia|]. now exists b'.
Qed.

(** At end of file, fewer than [limit] bytes: everything that was left. *)
Lemma delivers_nil_eof s : delivers true s [] [] -> forall n, 0 < n ->
  raw_read n s = (Ok [], []) \/
  (fst (raw_read n s) = Err EInterrupted /\ delivers true (snd (raw_read n s)) [] [] /\
   stream_size (snd (raw_read n s)) < stream_size s).
Proof.
  intros H n Hn. remember [] as bytes eqn:Eb in H at 1. remember [] as rest eqn:Er in H.
  destruct H as [rest|d s bytes rest Hne Hd|s bytes rest Hi Hd]; subst.
  - left. reflexivity.
  - destruct d; [congruence|discriminate].
  - right. simpl. auto.
Qed.

Lemma br_read_rep_eof n b :
  rep true b [] [] -> 0 < n -> 0 < br_cap b ->
  (exists b', br_read n b = (Ok [], b') /\ rep true b' [] [] /\ br_cap b' = br_cap b) \/
  (exists b', br_read n b = (Err EInterrupted, b') /\ rep true b' [] [] /\ br_cap b' = br_cap b /\
     length (br_buf b') + stream_size (br_in b') < length (br_buf b) + stream_size (br_in b)).
Proof.
  intros (bytes & E & Hd) Hn Hc. symmetry in E. apply app_eq_nil in E as [Hb ->].
  destruct b as [buf cap s]. cbn [br_buf br_cap br_in] in *. subst buf.
  unfold br_read, br_fill. cbn [br_buf br_cap br_in andb].
  destruct (Nat.leb_spec cap n) as [L|L]; cbn [andb].
  - destruct (delivers_nil_eof s Hd n Hn) as [-> | (E1 & E2 & E3)].
    + left. exists (BR [] cap []). repeat split. exists []. split; [reflexivity|constructor].
    + right. destruct (raw_read n s) as [r s']. cbn [fst snd] in *. subst r. exists (BR [] cap s').
      repeat split; auto. exists []. split; auto.
  - destruct (delivers_nil_eof s Hd cap Hc) as [-> | (E1 & E2 & E3)].
    + left. exists (BR [] cap []). rewrite firstn_nil, skipn_nil. repeat split. exists []. split; [reflexivity|constructor].
    + right. destruct (raw_read cap s) as [r s']. cbn [fst snd] in *. subst r. exists (BR [] cap s').
      repeat split; auto. exists []. split; auto.
Qed.

Lemma take_loop_eof fuel sz i limit acc b rem :
  (forall j, 0 < sz j) -> rep true b rem [] -> 0 < br_cap b -> (N.of_nat (length rem) < limit)%N ->
  length (br_buf b) + stream_size (br_in b) < fuel ->
  exists b', take_to_end_loop fuel sz i limit acc b = (Ok (acc ++ rem), b').
Proof.
  intros Hsz. revert i limit acc b rem.
  induction fuel as [|fuel IH]; intros i limit acc b rem Hrep Hc Hn Hf; [lia|].
  cbn [take_to_end_loop]. destruct (N.eqb_spec limit 0) as [->|Hl0]; [lia|].
  set (req := if (limit <? N.of_nat (sz i))%N then N.to_nat limit else sz i).
  assert (0 < req /\ req <= N.to_nat limit) as [Hreq Hreql].
  { unfold req. pose proof (Hsz i). destruct (N.ltb_spec limit (N.of_nat (sz i))); lia. }
  destruct rem as [|c0 rem0].
  { destruct (br_read_rep_eof req b Hrep Hreq Hc) as [(b' & -> & Hr & Hcb) | (b' & -> & Hr & Hcb & Hz)].
    - exists b'. now rewrite app_nil_r.
    - apply IH; auto; lia. }
  set (rem := c0 :: rem0) in *. assert (rem <> []) as Hne by discriminate.
  pose proof (br_read_rep true req b rem [] Hrep Hne Hreq Hc) as [Hcap Hcase].
  pose proof (br_read_any req b) as [_ Hany].
  destruct (br_read req b) as [r b1] eqn:E. cbn [fst snd] in *.
  destruct Hcase as [(k & Hk & Hkl & -> & Hr1) | (_ & -> & Hr1 & Hb0 & Hb1 & Hz)].
  - destruct (firstn k rem) as [|y d] eqn:Hd.
    { apply (f_equal (@length _)) in Hd. rewrite firstn_length in Hd. simpl in Hd. lia. }
    assert (length (y :: d) = k) as Hlen by (rewrite <- Hd, firstn_length; lia).
    destruct Hany as [(d' & [= <-] & _ & Hz) | (e & He & _)]; [|discriminate].
    destruct (IH (S i) (limit - N.of_nat (length (y :: d)))%N (acc ++ y :: d) b1 (skipn k rem)) as (b' & Hl).
    + exact Hr1.
    + lia.
    + rewrite skipn_length, Hlen. lia.
    + rewrite Hlen in Hz. lia.
    + exists b'. rewrite Hl. f_equal. f_equal. rewrite <- app_assoc. f_equal. rewrite <- Hd. apply firstn_skipn.
  - destruct (IH (S i) limit acc b1 rem) as (b' & Hl); auto; try lia.
    + rewrite Hb0 in Hf. rewrite Hb1. simpl in *. lia.
    + exists b'. exact Hl.
Qed.

Lemma take_to_end_eof sz limit b rem :
  (forall j, 0 < sz j) -> rep true b rem [] -> 0 < br_cap b -> (N.of_nat (length rem) < limit)%N ->
  exists b', take_to_end sz limit b = (Ok rem, b').
Proof. intros H0 H1 H2 H3. apply (take_loop_eof _ sz 0 limit [] b rem); auto. Qed.

(** Totality: at most [limit] bytes, or an error. *)
Lemma take_loop_total fuel sz i limit acc b :
  length (br_buf b) + stream_size (br_in b) < fuel ->
  (exists d, fst (take_to_end_loop fuel sz i limit acc b) = Ok (acc ++ d) /\ (N.of_nat (length d) <= limit)%N) \/
  (exists e, fst (take_to_end_loop fuel sz i limit acc b) = Err e).
Proof.
  revert i limit acc b. induction fuel as [|fuel IH]; intros i limit acc b Hf; [lia|].
  cbn [take_to_end_loop]. destruct (N.eqb_spec limit 0) as [->|Hl0].
  { left. exists []. rewrite app_nil_r. split; [reflexivity|simpl; lia]. }
  set (req := if (limit <? N.of_nat (sz i))%N then N.to_nat limit else sz i).
  assert (req <= N.to_nat limit) as Hreql.
  { unfold req. destruct (N.ltb_spec limit (N.of_nat (sz i))); lia. }
  pose proof (br_read_any req b) as [_ Hany].
  destruct (br_read req b) as [r b1]. cbn [fst snd] in *.
  destruct Hany as [(d & -> & Hd & Hz) | (e & -> & Hz)].
  - destruct d as [|y d].
    { left. exists []. rewrite app_nil_r. split; [reflexivity|simpl; lia]. }
    destruct (IH (S i) (limit - N.of_nat (length (y :: d)))%N (acc ++ y :: d) b1) as [(d' & -> & Hl) | (e & ->)].
    + simpl in Hz. lia.
    + left. exists ((y :: d) ++ d'). rewrite app_assoc. split; [reflexivity|]. rewrite app_length. lia.
    + right. now exists e.
  - destruct e; [|right; now exists EOther]. apply IH. lia.
Qed.

Lemma take_to_end_total sz limit b :
  (exists d, fst (take_to_end sz limit b) = Ok d /\ (N.of_nat (length d) <= limit)%N) \/
  (exists e, fst (take_to_end sz limit b) = Err e).
Proof. apply (take_loop_total _ sz 0 limit [] b). lia. Qed.

(* ------------------------------------------------------------------ *)
(** ** read_until *)

Lemma upto_some delim d n : upto delim d = Some n <->
  exists l r, d = l ++ delim :: r /\ ~ In delim l /\ n = S (length l).
Proof.
  revert n. induction d as [|c d IH]; intros n; simpl.
  - split; [discriminate|]. intros (l & r & E & _). destruct l; discriminate.
  - destruct (byte_eqb c delim) eqn:Hc.
    + apply byte_eqb_eq in Hc as ->. split.
      * intros [= <-]. exists [], d. auto.
      * intros (l & r & E & Hni & ->). destruct l as [|x l]; [reflexivity|].
        injection E as -> ->. exfalso. apply Hni. now left.
    + apply byte_eqb_neq in Hc. split.
      * destruct (upto delim d) as [m|]; [|discriminate]. intros [= <-].
        destruct (proj1 (IH m) eq_refl) as (l & r & -> & Hni & ->).
        exists (c :: l), r. repeat split; auto. intros [E|E]; auto.
      * intros (l & r & E & Hni & ->). destruct l as [|x l]; [injection E as -> ->; congruence|].
        injection E as -> ->. rewrite (proj2 (IH (S (length l)))); [reflexivity|].
        exists l, r. repeat split; auto. intros Hin. apply Hni. now right.
Qed.

Lemma upto_none delim d : upto delim d = None <-> ~ In delim d.
Proof.
  split.
  - intros H Hin. apply in_split in Hin as (l & r & ->).
    assert (exists l1 r1, l ++ delim :: r = l1 ++ delim :: r1 /\ ~ In delim l1) as (l1 & r1 & E & Hni).
    { clear H. induction l as [|x l IH]; [exists [], r; auto|].
      destruct (byte_dec x delim) as [->|Hx]; [exists [], (l ++ delim :: r); auto|].
      destruct IH as (l1 & r1 & E & Hni). exists (x :: l1), r1. simpl. rewrite E.
      split; auto. intros [Hc|Hc]; auto. }
    rewrite E in H. rewrite (proj2 (upto_some delim (l1 ++ delim :: r1) (S (length l1)))) in H; [discriminate|].
    exists l1, r1. auto.
  - intros H. destruct (upto delim d) as [n|] eqn:E; [|reflexivity].
    apply upto_some in E as (l & r & -> & _). exfalso. apply H. apply in_or_app. right. now left.
Qed.

(** [fill_buf] on a delivering reader. *)
Lemma br_fill_rep {intr} b rem rest :
  rep intr b rem rest -> rem <> [] -> 0 < br_cap b ->
  br_cap (snd (br_fill b)) = br_cap b /\
  ((exists d rem', d <> [] /\ rem = d ++ rem' /\ fst (br_fill b) = Ok d /\
      br_buf (snd (br_fill b)) = d /\ delivers intr (br_in (snd (br_fill b))) rem' rest /\
      (br_buf b <> [] /\ br_in (snd (br_fill b)) = br_in b \/
       stream_size (br_in (snd (br_fill b))) < stream_size (br_in b))) \/
   (fst (br_fill b) = Err EInterrupted /\ rep intr (snd (br_fill b)) rem rest /\
    br_buf b = [] /\ br_buf (snd (br_fill b)) = [] /\ stream_size (br_in (snd (br_fill b))) < stream_size (br_in b))).
Proof.
  intros (bytes & -> & Hd) Hr Hc. unfold br_fill. destruct (br_buf b) as [|c buf] eqn:Hb.
  - cbn [app] in *. pose proof (raw_read_delivers intr (br_cap b) (br_in b) bytes rest Hd Hr Hc) as
      [(k & Hk & Hkl & Hf & Hs) | (Hi & Hf & Hs & Hz)];
    destruct (raw_read (br_cap b) (br_in b)) as [r s'] eqn:E; cbn [fst snd] in *; subst r.
    + cbn [fst snd br_cap br_buf br_in]. split; [reflexivity|]. left.
      exists (firstn k bytes), (skipn k bytes). rewrite firstn_skipn. repeat split; auto.
      * intros E2. apply (f_equal (@length _)) in E2. rewrite firstn_length in E2. simpl in E2. lia.
      * right. pose proof (raw_read_size _ _ _ _ E) as [(E1 & _ & E3) | [(e & [=] & _) | (d & [= <-] & Hz & _)]].
        -- rewrite E1 in Hd. inversion Hd; subst; congruence.
        -- rewrite firstn_length in Hz. lia.
    + cbn [fst snd br_cap br_buf br_in]. split; [reflexivity|]. right. repeat split; auto. exists bytes. auto.
  - cbn [fst snd]. split; [reflexivity|]. left. exists (c :: buf), bytes. repeat split; auto; try discriminate.
    left. split; [discriminate|reflexivity].
Qed.

Definition until_fuel (b : bufreader) : nat :=
  stream_size (br_in b) + match br_buf b with [] => 0 | _ => 1 end.

Lemma read_until_loop_found {intr} fuel delim acc b l r rest :
  rep intr b (l ++ delim :: r) rest -> ~ In delim l -> 0 < br_cap b -> until_fuel b < fuel ->
  exists b', read_until_loop fuel delim acc b = (Ok (acc ++ l ++ [delim]), b') /\
             rep intr b' r rest /\ br_cap b' = br_cap b.
Proof.
  revert acc b l. induction fuel as [|fuel IH]; intros acc b l Hrep Hni Hc Hf; [lia|].
  cbn [read_until_loop].
  pose proof (br_fill_rep b _ rest Hrep ltac:(destruct l; discriminate) Hc) as [Hcap Hcase].
  destruct (br_fill b) as [res b1] eqn:E. cbn [fst snd] in *.
  destruct Hcase as [(d & rem' & Hdne & Hsplit & -> & Hb1 & Hdel & Hz) | (-> & Hr1 & Hb0 & Hb1 & Hz)].
  - destruct (upto delim d) as [n|] eqn:Hu.
    + apply upto_some in Hu as (l1 & r1 & -> & Hni1 & ->).
      rewrite <- app_assoc in Hsplit. simpl in Hsplit.
      assert (l1 = l /\ r1 ++ rem' = r) as [-> <-].
      { clear -Hsplit Hni Hni1. revert l1 Hsplit Hni1. induction l as [|x l IH]; intros [|y l1] H Hn1; simpl in *.
        - injection H as ->. auto.
        - injection H as -> _. exfalso. apply Hn1. now left.
        - injection H as -> _. exfalso. apply Hni. now left.
        - injection H as -> H. destruct (IH (fun h => Hni (or_intror h)) l1 H (fun h => Hn1 (or_intror h))) as [-> ->]. auto. }
      exists (BR (skipn (S (length l)) (l ++ delim :: r1)) (br_cap b1) (br_in b1)).
      assert (firstn (S (length l)) (l ++ delim :: r1) = l ++ [delim]) as Hfi.
      { rewrite firstn_app. replace (S (length l) - length l) with 1 by lia.
        rewrite firstn_all2 by lia. reflexivity. }
      assert (skipn (S (length l)) (l ++ delim :: r1) = r1) as Hsk.
      { rewrite skipn_app. replace (S (length l) - length l) with 1 by lia.
        rewrite skipn_all2 by lia. reflexivity. }
      rewrite Hfi, Hsk. split; [reflexivity|]. split; [|exact Hcap].
      exists rem'. auto.
    + apply upto_none in Hu.
      destruct d as [|c d]; [congruence|].
      assert (exists l', l = (c :: d) ++ l') as (l' & ->).
      { clear -Hsplit Hu. revert Hsplit Hu. generalize (c :: d) as e. intros e. revert l.
        induction e as [|x e IH]; intros l H Hu; [now exists l|].
        destruct l as [|y l]; simpl in H.
        - injection H as -> _. exfalso. apply Hu. now left.
        - injection H as -> H. destruct (IH l H (fun h => Hu (or_intror h))) as (l' & ->). now exists l'. }
      rewrite <- app_assoc in Hsplit. apply app_inv_head in Hsplit. subst rem'.
      destruct (IH (acc ++ c :: d) (BR [] (br_cap b1) (br_in b1)) l') as (b' & Hl & Hr & Hcb).
      * exists (l' ++ delim :: r). auto.
      * intros Hin. apply Hni. apply in_or_app. now right.
      * simpl. lia.
      * unfold until_fuel in *. simpl. destruct Hz as [[Hbne Heq] | Hz].
        -- rewrite Heq. destruct (br_buf b); [congruence|]. lia.
        -- destruct (br_buf b); lia.
      * exists b'. rewrite Hl. split; [|split; [exact Hr|simpl in Hcb; congruence]].
        now rewrite <- !app_assoc.
  - destruct (IH acc b1 l) as (b' & Hl & Hr & Hcb); auto; try lia.
    + unfold until_fuel in *. rewrite Hb0 in Hf. rewrite Hb1. lia.
    + exists b'. rewrite Hl. split; [reflexivity|split; [exact Hr|congruence]].
Qed.

Lemma until_fuel_enough b : until_fuel b < S (S (stream_size (br_in b))).
Proof. unfold until_fuel. destruct (br_buf b); lia. Qed.

(** The delimiter is ahead: exactly the bytes through it are returned and the rest is kept. *)
Lemma read_until_found {intr} delim b l r rest :
  rep intr b (l ++ delim :: r) rest -> ~ In delim l -> 0 < br_cap b ->
  exists b', read_until delim b = (Ok (l ++ [delim]), b') /\ rep intr b' r rest /\ br_cap b' = br_cap b.
Proof.
  intros H1 H2 H3. unfold read_until.
  destruct (read_until_loop_found (S (S (stream_size (br_in b)))) delim [] b l r rest H1 H2 H3 (until_fuel_enough b))
    as (b' & H). now exists b'.
Qed.

(** The stream ends first: everything is returned. *)
Lemma br_fill_rep_eof b : rep true b [] [] -> 0 < br_cap b ->
  (exists b', br_fill b = (Ok [], b') /\ rep true b' [] [] /\ br_cap b' = br_cap b) \/
  (exists b', br_fill b = (Err EInterrupted, b') /\ rep true b' [] [] /\ br_cap b' = br_cap b /\
     br_buf b' = [] /\ stream_size (br_in b') < stream_size (br_in b)).
Proof.
  intros (bytes & E & Hd) Hc. symmetry in E. apply app_eq_nil in E as [Hb ->].
  destruct b as [buf cap s]. cbn [br_buf br_cap br_in] in *. subst buf.
  unfold br_fill. cbn [br_buf br_cap br_in].
  destruct (delivers_nil_eof s Hd cap Hc) as [-> | (E1 & E2 & E3)].
  - left. exists (BR [] cap []). repeat split. exists []. split; [reflexivity|constructor].
  - right. destruct (raw_read cap s) as [r s']. cbn [fst snd] in *. subst r. exists (BR [] cap s').
    repeat split; auto. exists []. split; auto.
Qed.

(** A transport error is ahead. *)
Lemma delivers_nil_err s rest : delivers true s [] (Fail EOther :: rest) -> forall n,
  raw_read n s = (Err EOther, rest) \/
  (fst (raw_read n s) = Err EInterrupted /\ delivers true (snd (raw_read n s)) [] (Fail EOther :: rest) /\
   stream_size (snd (raw_read n s)) < stream_size s).
Proof.
  intros H n. remember [] as bytes eqn:Eb in H at 1. remember (Fail EOther :: rest) as rest0 eqn:Er in H.
  destruct H as [rest1|d s bytes rest1 Hne Hd|s bytes rest1 Hi Hd]; subst.
  - left. reflexivity.
  - destruct d; [congruence|discriminate].
  - right. simpl. auto.
Qed.

Lemma br_fill_rep_err b rest : rep true b [] (Fail EOther :: rest) -> 0 < br_cap b ->
  (exists b', br_fill b = (Err EOther, b') /\ br_in b' = rest) \/
  (exists b', br_fill b = (Err EInterrupted, b') /\ rep true b' [] (Fail EOther :: rest) /\ br_cap b' = br_cap b /\
     br_buf b' = [] /\ stream_size (br_in b') < stream_size (br_in b)).
Proof.
  intros (bytes & E & Hd) Hc. symmetry in E. apply app_eq_nil in E as [Hb ->].
  destruct b as [buf cap s]. cbn [br_buf br_cap br_in] in *. subst buf.
  unfold br_fill. cbn [br_buf br_cap br_in].
  destruct (delivers_nil_err s rest Hd cap) as [-> | (E1 & E2 & E3)].
  - left. exists (BR [] cap rest). auto.
  - right. destruct (raw_read cap s) as [r s']. cbn [fst snd] in *. subst r. exists (BR [] cap s').
    repeat split; auto. exists []. split; auto.
Qed.

Lemma read_until_loop_end fuel delim acc b l rest :
  (rest = [] \/ exists r, rest = Fail EOther :: r) ->
  rep true b l rest -> ~ In delim l -> 0 < br_cap b -> until_fuel b < fuel ->
  match rest with
  | [] => exists b', read_until_loop fuel delim acc b = (Ok (acc ++ l), b') /\ rep true b' [] [] /\ br_cap b' = br_cap b
  | _ => exists b', read_until_loop fuel delim acc b = (Err EOther, b')
  end.
Proof.
  intros Hrest. revert acc b l. induction fuel as [|fuel IH]; intros acc b l Hrep Hni Hc Hf; [lia|].
  cbn [read_until_loop]. destruct l as [|c0 l0].
  { destruct Hrest as [-> | [r ->]].
    - destruct (br_fill_rep_eof b Hrep Hc) as [(b' & -> & Hr & Hcb) | (b' & -> & Hr & Hcb & Hb' & Hz)].
      + exists b'. simpl. rewrite app_nil_r. auto.
      + specialize (IH acc b' [] Hr Hni ltac:(lia)).
        destruct IH as (b2 & Hl & Hr2 & Hcb2).
        { unfold until_fuel in *. rewrite Hb'. lia. }
        exists b2. rewrite Hl. split; [reflexivity|]. split; [exact Hr2|congruence].
    - destruct (br_fill_rep_err b r Hrep Hc) as [(b' & -> & Hr) | (b' & -> & Hr & Hcb & Hb' & Hz)].
      + now exists b'.
      + apply (IH acc b' [] Hr Hni ltac:(lia)). unfold until_fuel in *. rewrite Hb'. lia. }
  set (l := c0 :: l0) in *.
  pose proof (br_fill_rep b l rest Hrep ltac:(discriminate) Hc) as [Hcap Hcase].
  destruct (br_fill b) as [res b1] eqn:E. cbn [fst snd] in *.
  destruct Hcase as [(d & rem' & Hdne & Hsplit & -> & Hb1 & Hdel & Hz) | (-> & Hr1 & Hb0 & Hb1 & Hz)].
  - assert (upto delim d = None) as ->.
    { apply upto_none. intros Hin. apply Hni. rewrite Hsplit. apply in_or_app. now left. }
    destruct d as [|c d]; [congruence|].
    specialize (IH (acc ++ c :: d) (BR [] (br_cap b1) (br_in b1)) rem').
    assert (rep true (BR [] (br_cap b1) (br_in b1)) rem' rest) as Hrep1 by (exists rem'; auto).
    assert (~ In delim rem') as Hni1.
    { intros Hin. apply Hni. rewrite Hsplit. apply in_or_app. now right. }
    assert (until_fuel (BR [] (br_cap b1) (br_in b1)) < fuel) as Hf1.
    { unfold until_fuel in *. simpl. destruct Hz as [[Hbne Heq] | Hz].
      - rewrite Heq. destruct (br_buf b); [congruence|]. lia.
      - destruct (br_buf b); lia. }
    specialize (IH Hrep1 Hni1 ltac:(simpl; lia) Hf1).
    destruct Hrest as [-> | [r ->]].
    + destruct IH as (b' & Hl & Hr & Hcb). exists b'. rewrite Hl, Hsplit, <- app_assoc.
      split; [reflexivity|]. split; [exact Hr|]. simpl in Hcb. congruence.
    + exact IH.
  - specialize (IH acc b1 l Hr1 Hni ltac:(lia)).
    assert (until_fuel b1 < fuel) as Hf1.
    { unfold until_fuel in *. rewrite Hb0 in Hf. rewrite Hb1. lia. }
    specialize (IH Hf1). destruct Hrest as [-> | [r ->]].
    + destruct IH as (b' & Hl & Hr & Hcb). exists b'. rewrite Hl. repeat split; auto. congruence.
    + exact IH.
Qed.

Lemma read_until_eof delim b l :
  rep true b l [] -> ~ In delim l -> 0 < br_cap b ->
  exists b', read_until delim b = (Ok l, b') /\ rep true b' [] [] /\ br_cap b' = br_cap b.
Proof.
  intros H1 H2 H3. unfold read_until.
  exact (read_until_loop_end (S (S (stream_size (br_in b)))) delim [] b l [] (or_introl eq_refl) H1 H2 H3 (until_fuel_enough b)).
Qed.

Lemma read_until_err delim b l r :
  rep true b l (Fail EOther :: r) -> ~ In delim l -> 0 < br_cap b ->
  exists b', read_until delim b = (Err EOther, b').
Proof.
  intros H1 H2 H3. unfold read_until.
  exact (read_until_loop_end (S (S (stream_size (br_in b)))) delim [] b l (Fail EOther :: r)
           (or_intror (ex_intro _ r eq_refl)) H1 H2 H3 (until_fuel_enough b)).
Qed.

(* ------------------------------------------------------------------ *)
(** ** Failing writers *)

Lemma write_calls_none calls : write_calls calls None = (concat calls, true).
Proof. induction calls as [|c calls IH]; simpl; [reflexivity|]. now rewrite IH. Qed.

Lemma write_calls_some calls n :
  write_calls calls (Some n) =
  (firstn n (concat calls), Nat.leb (length (concat calls)) n).
Proof.
  revert n. induction calls as [|c calls IH]; intros n; simpl.
  - now rewrite firstn_nil.
  - destruct (Nat.leb_spec (length c) n) as [L|L].
    + rewrite IH. rewrite firstn_app, (firstn_all2 c) by lia. f_equal.
      rewrite app_length. destruct (Nat.leb_spec (length (concat calls)) (n - length c)),
        (Nat.leb_spec (length c + length (concat calls)) n); auto; lia.
    + rewrite firstn_app. replace (n - length c) with 0 by lia. simpl. rewrite app_nil_r. f_equal.
      rewrite app_length. symmetry. apply Nat.leb_gt. lia.
Qed.

(* ------------------------------------------------------------------ *)
(** ** Byte accounting: nothing is invented, reordered or duplicated *)

(** All data bytes the transport will ever deliver, errors skipped. *)
Definition bytes_of (s : stream) : str :=
  flat_map (fun e => match e with Data d => d | Fail _ => [] end) s.
(** The same for a buffered reader. *)
Definition avail (b : bufreader) : str := br_buf b ++ bytes_of (br_in b).

Lemma bytes_of_app a b : bytes_of (a ++ b) = bytes_of a ++ bytes_of b.
Proof. apply flat_map_app. Qed.
Lemma bytes_of_chunks cs : bytes_of (map Data cs) = concat cs.
Proof. induction cs as [|c cs IH]; simpl; [reflexivity|]. now f_equal. Qed.

Lemma raw_read_bytes n s : bytes_of s =
  (match fst (raw_read n s) with Ok d => d | _ => [] end) ++ bytes_of (snd (raw_read n s)).
Proof.
  destruct s as [|[d|e] s]; simpl; try reflexivity.
  destruct (skipn n d) as [|y d'] eqn:E; simpl; [reflexivity|].
  change (y :: d' ++ bytes_of s) with ((y :: d') ++ bytes_of s).
  rewrite <- E, app_assoc, firstn_skipn. reflexivity.
Qed.

Lemma br_read_bytes n b : avail b =
  (match fst (br_read n b) with Ok d => d | _ => [] end) ++ avail (snd (br_read n b)).
Proof.
  unfold br_read, br_fill, avail. destruct (br_buf b) as [|c buf] eqn:Hb.
  - cbn [andb]. destruct (Nat.leb (br_cap b) n).
    + pose proof (raw_read_bytes n (br_in b)) as H. destruct (raw_read n (br_in b)) as [[d|e| |] s'];
        cbn [fst snd br_buf br_in app] in *; exact H.
    + pose proof (raw_read_bytes (br_cap b) (br_in b)) as H.
      destruct (raw_read (br_cap b) (br_in b)) as [[d|e| |] s'];
        cbn [fst snd br_buf br_in br_cap app] in *; auto.
      rewrite H, app_assoc, firstn_skipn. reflexivity.
  - cbn [andb fst snd br_buf br_in]. rewrite app_assoc, firstn_skipn. reflexivity.
Qed.

Lemma br_read_len n b d b' : br_read n b = (Ok d, b') -> length d <= n.
Proof.
  intros E. destruct (br_read_any n b) as [_ [(d0 & H & L & _) | (e & H & _)]];
    rewrite E in H; cbn [fst] in H; [injection H as <-; exact L|discriminate].
Qed.

Lemma read_exact_loop_bytes fuel n acc b r b' :
  read_exact_loop fuel n acc b = (Ok r, b') ->
  exists d, r = acc ++ d /\ length d = n /\ avail b = d ++ avail b'.
Proof.
  revert n acc b. induction fuel as [|fuel IH]; intros n acc b; destruct n as [|n]; cbn [read_exact_loop].
  1,3: intros [= <- <-]; exists []; rewrite app_nil_r; auto.
  { discriminate. }
  pose proof (br_read_bytes (S n) b) as Hb. destruct (br_read (S n) b) as [r1 b1] eqn:E1.
  cbn [fst snd] in Hb. destruct r1 as [d1|e1| |]; try discriminate.
  - pose proof (br_read_len _ _ _ _ E1) as L1.
    destruct d1 as [|y d1]; [discriminate|]. intros H.
    destruct (IH _ _ _ H) as (d & -> & Hl & Hav). exists ((y :: d1) ++ d).
    rewrite <- app_assoc. repeat split; [|rewrite Hb, Hav, app_assoc; reflexivity].
    rewrite app_length. lia.
  - destruct e1; [|discriminate]. intros H. destruct (IH _ _ _ H) as (d & -> & Hl & Hav).
    exists d. rewrite Hb. auto.
Qed.

Lemma read_exact_bytes n b d b' : read_exact n b = (Ok d, b') -> length d = n /\ avail b = d ++ avail b'.
Proof.
  intros H. destruct (read_exact_loop_bytes _ _ _ _ _ _ H) as (d' & -> & Hl & Ha). auto.
Qed.

Lemma take_loop_bytes fuel sz i limit acc b r b' :
  take_to_end_loop fuel sz i limit acc b = (Ok r, b') ->
  exists d, r = acc ++ d /\ (N.of_nat (length d) <= limit)%N /\ avail b = d ++ avail b'.
Proof.
  revert i limit acc b. induction fuel as [|fuel IH]; intros i limit acc b; cbn [take_to_end_loop].
  - destruct (N.eqb_spec limit 0) as [->|]; [|discriminate].
    intros [= <- <-]; exists []; rewrite app_nil_r; auto. repeat split. simpl. lia.
  - destruct (N.eqb_spec limit 0) as [->|].
    { intros [= <- <-]; exists []; rewrite app_nil_r; auto. repeat split. simpl. lia. }
    set (req := if (limit <? N.of_nat (sz i))%N then N.to_nat limit else sz i).
    assert (req <= N.to_nat limit) as Hreq by (unfold req; destruct (N.ltb_spec limit (N.of_nat (sz i))); lia).
    pose proof (br_read_bytes req b) as Hb. destruct (br_read req b) as [r1 b1] eqn:E1.
    cbn [fst snd] in Hb. destruct r1 as [d1|e1| |]; try discriminate.
    + pose proof (br_read_len _ _ _ _ E1) as L1.
      destruct d1 as [|y d1].
      { intros [= <- <-]. exists []. rewrite app_nil_r. repeat split; auto. simpl. lia. }
      intros H. destruct (IH _ _ _ _ H) as (d & -> & Hl & Hav). exists ((y :: d1) ++ d).
      rewrite <- app_assoc. repeat split; [|rewrite Hb, Hav, app_assoc; reflexivity].
      rewrite app_length. lia.
    + destruct e1; [|discriminate]. intros H. destruct (IH _ _ _ _ H) as (d & -> & Hl & Hav).
      exists d. rewrite Hb. auto.
Qed.

Lemma take_to_end_bytes sz limit b d b' :
  take_to_end sz limit b = (Ok d, b') -> (N.of_nat (length d) <= limit)%N /\ avail b = d ++ avail b'.
Proof.
  intros H. destruct (take_loop_bytes _ _ _ _ _ _ _ _ H) as (d' & -> & Hl & Ha). auto.
Qed.

(* ------------------------------------------------------------------ *)
(** ** Where the segment boundaries are *)

(** [p] is a segment boundary still ahead, for a reader at offset [off] with [buf] buffered and
    the chunks [cs] still in the transport. *)
Definition cut (off : nat) (buf : str) (cs : list str) (p : nat) : Prop :=
  exists cs1 cs2, cs = cs1 ++ cs2 /\ p = off + length buf + length (concat cs1).

Lemma br_read_track n b cs rest off :
  br_in b = map Data cs ++ rest -> Forall (fun c => c <> []) cs -> br_buf b ++ concat cs <> [] ->
  0 < n < br_cap b ->
  exists d buf' cs', br_read n b = (Ok d, BR buf' (br_cap b) (map Data cs' ++ rest)) /\
    d <> [] /\ length d <= n /\ Forall (fun c => c <> []) cs' /\
    br_buf b ++ concat cs = d ++ buf' ++ concat cs' /\
    (forall p, off + length d <= p < off + br_cap b ->
       (cut off (br_buf b) cs p <-> cut (off + length d) buf' cs' p)) /\
    (length d < n -> cut off (br_buf b) cs (off + length d)).
Proof.
  intros Hin Hne Hrem Hn. unfold br_read, br_fill. destruct b as [buf cap s]. cbn [br_buf br_cap br_in] in *.
  subst s. destruct buf as [|x buf].
  - destruct cs as [|c cs]; [cbn in Hrem; congruence|]. inversion Hne as [|c0 cs0 Hc Hcs]; subst.
    destruct (Nat.leb_spec cap n); [lia|]. cbn [andb map app raw_read].
    destruct (skipn cap c) as [|y c'] eqn:Hs.
    + assert (length c <= cap) as Hlc.
      { apply (f_equal (@length _)) in Hs. rewrite skipn_length in Hs. simpl in Hs. lia. }
      exists (firstn n c), (skipn n c), cs. cbn [br_cap br_in]. split; [reflexivity|].
      assert (length (firstn n c) = Nat.min n (length c)) as Hl by apply firstn_length.
      repeat split; auto.
      * destruct c; [congruence|]. destruct n; [lia|]. discriminate.
      * lia.
      * cbn [concat app]. rewrite app_assoc, firstn_skipn. reflexivity.
      * intros (cs1 & cs2 & E & ->). destruct cs1 as [|c1 cs1].
        { simpl in H0. destruct c; [congruence|]. simpl in *. lia. }
        injection E as <- ->. exists cs1, cs2. split; [reflexivity|].
        cbn [concat length]. rewrite app_length, skipn_length. lia.
      * intros (cs1 & cs2 & -> & ->). exists (c :: cs1), cs2. split; [reflexivity|].
        cbn [concat length]. rewrite app_length, skipn_length. lia.
      * intros Hlt. exists [c], cs. split; [reflexivity|]. simpl. rewrite app_length. simpl. lia.
    + assert (cap < length c) as Hlc.
      { apply (f_equal (@length _)) in Hs. rewrite skipn_length in Hs. simpl in Hs. lia. }
      exists (firstn n (firstn cap c)), (skipn n (firstn cap c)), ((y :: c') :: cs). cbn [br_cap br_in].
      split; [reflexivity|].
      assert (length (firstn n (firstn cap c)) = n) as Hl by (rewrite !firstn_length; lia).
      assert (length c = cap + length (y :: c')) as Hlen.
      { rewrite <- Hs, skipn_length. lia. }
      repeat split; auto.
      * intros E. rewrite E in Hl. simpl in Hl. lia.
      * lia.
      * constructor; [discriminate|assumption].
      * cbn [concat]. rewrite (app_assoc (firstn n _)), firstn_skipn, <- Hs.
        rewrite app_assoc, firstn_skipn. reflexivity.
      * intros (cs1 & cs2 & E & ->). destruct cs1 as [|c1 cs1].
        { simpl in H0. lia. }
        injection E as <- ->. cbn [concat length] in H0. rewrite app_length in H0. lia.
      * intros (cs1 & cs2 & E & ->). rewrite Hl in H0. rewrite skipn_length, firstn_length in H0. lia.
      * lia.
  - cbn [andb br_cap br_in]. exists (firstn n (x :: buf)), (skipn n (x :: buf)), cs. split; [reflexivity|].
    assert (length (firstn n (x :: buf)) + length (skipn n (x :: buf)) = length (x :: buf)) as Hl.
    { rewrite <- app_length, firstn_skipn. reflexivity. }
    repeat split; auto.
    + destruct n; [lia|]. discriminate.
    + rewrite firstn_length. lia.
    + rewrite app_assoc, firstn_skipn. reflexivity.
    + intros (cs1 & cs2 & -> & ->). exists cs1, cs2. split; [reflexivity|]. lia.
    + intros (cs1 & cs2 & -> & ->). exists cs1, cs2. split; [reflexivity|]. lia.
    + intros Hlt. exists [], cs. split; [reflexivity|]. simpl concat. simpl (length []).
      rewrite firstn_length in *. lia.
Qed.

Lemma read_exact_loop_track fuel n acc b cs rest off :
  br_in b = map Data cs ++ rest -> Forall (fun c => c <> []) cs -> n <= length (br_buf b ++ concat cs) ->
  n < br_cap b -> length (br_buf b) + stream_size (br_in b) < fuel ->
  exists d buf' cs', read_exact_loop fuel n acc b = (Ok (acc ++ d), BR buf' (br_cap b) (map Data cs' ++ rest)) /\
    length d = n /\ Forall (fun c => c <> []) cs' /\
    br_buf b ++ concat cs = d ++ buf' ++ concat cs' /\
    (forall p, off + n <= p < off + br_cap b ->
       (cut off (br_buf b) cs p <-> cut (off + n) buf' cs' p)).
Proof.
  revert n acc b cs off. induction fuel as [|fuel IH]; intros n acc b cs off Hin Hne Hrem Hn Hf; [lia|].
  destruct n as [|n].
  { exists [], (br_buf b), cs. cbn [read_exact_loop]. rewrite app_nil_r. rewrite <- Hin.
    destruct b as [bf cp st]; cbn [br_buf br_cap br_in]. rewrite Nat.add_0_r. repeat split; auto. }
  cbn [read_exact_loop].
  destruct (br_read_track (S n) b cs rest off Hin Hne) as (d & buf' & cs' & E & Hd & Hl & Hne' & Hsplit & Hcut & _).
  { intros E. rewrite E in Hrem. simpl in Hrem. lia. }
  { lia. }
  pose proof (br_read_any (S n) b) as [_ Hany]. rewrite E in *. cbn [fst snd br_buf br_in] in Hany.
  destruct Hany as [(d' & [= <-] & _ & Hz) | (e & He & _)]; [|discriminate].
  destruct d as [|y d0]; [congruence|]. set (d := y :: d0) in *.
  assert (0 < length d) as Hpos by (simpl; lia).
  destruct (IH (S n - length d) (acc ++ d) (BR buf' (br_cap b) (map Data cs' ++ rest)) cs' (off + length d))
    as (d2 & buf2 & cs2 & E2 & Hl2 & Hne2 & Hsplit2 & Hcut2); cbn [br_buf br_cap br_in]; auto; try lia.
  { apply (f_equal (@length _)) in Hsplit. rewrite app_length in Hsplit. rewrite app_length in Hrem.
    rewrite app_length in Hsplit. lia. }
  cbn [br_buf br_cap br_in] in *.
  exists (d ++ d2), buf2, cs2. rewrite E2. rewrite <- app_assoc. repeat split; auto.
  - rewrite app_length. lia.
  - rewrite Hsplit, Hsplit2, app_assoc. reflexivity.
  - intros Hc. replace (off + S n) with (off + length d + (S n - length d)) by lia.
    apply Hcut2; [lia|]. apply Hcut; [lia|]. exact Hc.
  - intros Hc. apply Hcut; [lia|]. apply Hcut2; [lia|].
    replace (off + length d + (S n - length d)) with (off + S n) by lia. exact Hc.
Qed.

Lemma read_exact_track n b cs rest off :
  br_in b = map Data cs ++ rest -> Forall (fun c => c <> []) cs -> n <= length (br_buf b ++ concat cs) ->
  n < br_cap b ->
  exists d buf' cs', read_exact n b = (Ok d, BR buf' (br_cap b) (map Data cs' ++ rest)) /\
    length d = n /\ Forall (fun c => c <> []) cs' /\
    br_buf b ++ concat cs = d ++ buf' ++ concat cs' /\
    (forall p, off + n <= p < off + br_cap b ->
       (cut off (br_buf b) cs p <-> cut (off + n) buf' cs' p)).
Proof.
  intros H1 H2 H3 H4. unfold read_exact.
  apply (read_exact_loop_track _ n [] b cs rest off H1 H2 H3 H4). lia.
Qed.

(* ------------------------------------------------------------------ *)
(** ** Readers only consume *)
Definition br_size (b : bufreader) : nat := length (br_buf b) + stream_size (br_in b).

Lemma br_read_size n b : br_size (snd (br_read n b)) <= br_size b.
Proof.
  pose proof (br_read_any n b) as [_ [(d & _ & _ & H) | (e & _ & H)]]; unfold br_size; lia.
Qed.

Lemma read_exact_loop_size fuel n acc b : br_size (snd (read_exact_loop fuel n acc b)) <= br_size b.
Proof.
  revert n acc b. induction fuel as [|fuel IH]; intros n acc b; destruct n as [|n]; cbn [read_exact_loop snd]; auto.
  pose proof (br_read_size (S n) b) as H. destruct (br_read (S n) b) as [[d|e| |] b1]; cbn [snd] in *; auto.
  - destruct d as [|y d]; cbn [snd]; [exact H|]. etransitivity; [apply IH|exact H].
  - destruct e; cbn [snd]; [|exact H]. etransitivity; [apply IH|exact H].
Qed.
Lemma read_exact_size n b : br_size (snd (read_exact n b)) <= br_size b.
Proof. apply read_exact_loop_size. Qed.

Lemma take_loop_size fuel sz i limit acc b : br_size (snd (take_to_end_loop fuel sz i limit acc b)) <= br_size b.
Proof.
  revert i limit acc b. induction fuel as [|fuel IH]; intros i limit acc b; cbn [take_to_end_loop];
    destruct (N.eqb limit 0); cbn [snd]; auto.
  match goal with |- context [br_read ?r b] => pose proof (br_read_size r b) as H; destruct (br_read r b) as [[d|e| |] b1] end;
    cbn [snd] in *; auto.
  - destruct d as [|y d]; cbn [snd]; [exact H|]. etransitivity; [apply IH|exact H].
  - destruct e; cbn [snd]; [|exact H]. etransitivity; [apply IH|exact H].
Qed.
Lemma take_to_end_size sz limit b : br_size (snd (take_to_end sz limit b)) <= br_size b.
Proof. apply take_loop_size. Qed.
