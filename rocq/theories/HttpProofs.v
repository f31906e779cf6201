(** Proofs about the HTTP model, part 1: reading heads and bodies. *)
From Verif Require Import Base HMap Num Utf8 Io IoProofs HttpModel HttpSpec Httparse.
Ltac Zify.zify_post_hook ::= Z.div_mod_to_equations.

(* ------------------------------------------------------------------ *)
(** ** read_until on arbitrary streams *)

Lemma br_fill_nonempty b : br_buf b <> [] -> br_fill b = (Ok (br_buf b), b).
Proof. intros H. unfold br_fill. destruct (br_buf b); [congruence|reflexivity]. Qed.
Lemma br_fill_empty b : br_buf b = [] ->
  (exists d s', br_fill b = (Ok d, BR d (br_cap b) s') /\ length d + stream_size s' <= stream_size (br_in b)) \/
  (exists e s', br_fill b = (Err e, BR [] (br_cap b) s') /\ stream_size s' < stream_size (br_in b)).
Proof.
  intros Hb. unfold br_fill. rewrite Hb.
  destruct (raw_read (br_cap b) (br_in b)) as [r s'] eqn:E.
  destruct (raw_read_size _ _ _ _ E) as [(H1 & -> & ->)|[(e & -> & H)|(d & -> & H & H')]].
  - left. exists [], []. rewrite H1. cbn. auto.
  - right. eauto.
  - left. eauto.
Qed.

Lemma upto_bound delim d n : upto delim d = Some n -> 0 < n <= length d.
Proof. intros H. apply upto_some in H as (l & r & -> & _ & ->). rewrite app_length. cbn. lia. Qed.

Lemma read_until_loop_any fuel delim acc b : until_fuel b < fuel ->
  (exists d b', read_until_loop fuel delim acc b = (Ok (acc ++ d), b') /\ length d + br_size b' <= br_size b /\ br_cap b' = br_cap b) \/
  (exists e b', read_until_loop fuel delim acc b = (Err e, b')).
Proof.
  revert acc b. induction fuel as [|fuel IH]; intros acc b Hf; [lia|]. cbn [read_until_loop].
  assert (forall d s', br_fill b = (Ok d, BR d (br_cap b) s') -> length d + stream_size s' <= br_size b ->
          (d <> [] -> stream_size s' < until_fuel b) ->
    (exists d' b', read_until_loop (S fuel) delim acc b = (Ok (acc ++ d'), b') /\ length d' + br_size b' <= br_size b /\ br_cap b' = br_cap b) \/
    (exists e b', read_until_loop (S fuel) delim acc b = (Err e, b'))) as Hok.
  { intros d s' Hfill Hsz Hdec. cbn [read_until_loop]. rewrite Hfill. cbn [br_cap br_in].
    destruct (upto delim d) as [n|] eqn:Hu.
    - left. exists (firstn n d), (BR (skipn n d) (br_cap b) s'). split; [reflexivity|].
      apply upto_bound in Hu. unfold br_size in *. cbn [br_buf br_in]. rewrite firstn_length, skipn_length. split; [lia|auto].
    - destruct d as [|c d].
      + left. exists [], (BR [] (br_cap b) s'). rewrite app_nil_r. split; [reflexivity|]. unfold br_size in *. cbn [br_buf br_in br_cap length] in *. split; [lia|auto].
      + destruct (IH (acc ++ c :: d) (BR [] (br_cap b) s')) as [(d' & b' & E & Hl & Hc)|(e & b' & E)].
        { unfold until_fuel in *. cbn [br_buf br_in]. specialize (Hdec ltac:(discriminate)). lia. }
        { left. exists (c :: d ++ d'), b'. rewrite E. split; [now rewrite <- app_assoc|].
          unfold br_size in *. cbn [br_buf br_in br_cap length] in *. rewrite app_length. split; [lia|congruence]. }
        { right. eauto. } }
  cbn [read_until_loop] in Hok.
  destruct (br_buf b) as [|y buf] eqn:Hb.
  - destruct (br_fill_empty b Hb) as [(d & s' & E & H)|(e & s' & E & H)].
    + apply (Hok d s'); auto.
      * unfold br_size. lia.
      * intros Hd. unfold until_fuel. rewrite Hb. destruct d; [congruence|]. cbn in H. lia.
    + rewrite E. destruct e; [|right; eauto].
      destruct (IH acc (BR [] (br_cap b) s')) as [(d' & b' & E' & Hl & Hc)|(e & b' & E')].
      { unfold until_fuel in *. rewrite Hb in Hf. cbn [br_buf br_in]. lia. }
      { left. exists d', b'. split; [exact E'|]. unfold br_size in *. rewrite Hb in *. cbn [br_buf br_in br_cap length] in *. split; [lia|congruence]. }
      { right. eauto. }
  - assert (br_fill b = (Ok (y :: buf), b)) as E by (rewrite <- Hb; apply br_fill_nonempty; rewrite Hb; discriminate).
    apply (Hok (y :: buf) (br_in b)).
    + rewrite E. f_equal. destruct b; cbn in *. now rewrite Hb.
    + unfold br_size. rewrite Hb. lia.
    + unfold until_fuel. rewrite Hb. lia.
Qed.

Lemma read_until_any delim b :
  (exists d b', read_until delim b = (Ok d, b') /\ length d + br_size b' <= br_size b /\ br_cap b' = br_cap b) \/
  (exists e b', read_until delim b = (Err e, b')).
Proof. apply (read_until_loop_any _ delim [] b). apply until_fuel_enough. Qed.

(* ------------------------------------------------------------------ *)
(** ** Heads *)

Lemma ends_head_spec s : ends_head s = true <-> exists p, s = p ++ CRLF ++ CRLF.
Proof.
  unfold ends_head. rewrite andb_true_iff, Nat.leb_le, str_eqb_eq. split.
  - intros [H E]. exists (firstn (length s - 4) s). change (CRLF ++ CRLF) with CRLFCRLF. rewrite <- E. symmetry. apply firstn_skipn.
  - intros (p & ->). rewrite app_length. cbn [length app CRLF]. split; [lia|].
    replace (length p + 4 - 4) with (length p + 0) by lia. rewrite skipn_app, skipn_all2 by lia.
    replace (length p + 0 - length p) with 0 by lia. reflexivity.
Qed.

Lemma rep_length intr b rem tail : rep intr b rem tail -> length rem <= br_size b.
Proof.
  intros (bytes & -> & H). unfold br_size. rewrite app_length. enough (length bytes <= stream_size (br_in b)) by lia.
  induction H as [| d s bytes rest Hd H IH | s bytes rest Hi H IH]; [cbn; lia| |];
    cbn [length stream_size fold_right ev_size]; fold (stream_size s); try rewrite app_length; lia.
Qed.

Lemma first_lf (s : str) : In x0a s -> exists l r, s = l ++ x0a :: r /\ ~ In x0a l.
Proof.
  intros H. destruct (upto x0a s) as [n|] eqn:E.
  - apply upto_some in E as (l & r & -> & Hl & _). eauto.
  - apply upto_none in E. contradiction.
Qed.

Lemma head_loop_found {intr} fuel buf h b rest tail :
  rep intr b (h ++ rest) tail -> 0 < br_cap b -> h <> [] -> complete_head (buf ++ h) -> length h < fuel ->
  exists b', head_loop fuel buf b = (Ok (Some (buf ++ h)), b') /\ rep intr b' rest tail /\ br_cap b' = br_cap b.
Proof.
  revert buf h b. induction fuel as [|fuel IH]; intros buf h b Hrep Hcap Hne Hc Hf; [lia|].
  destruct Hc as [(p & Hp) Hmin].
  assert (In x0a h) as Hin.
  { destruct (exists_last Hne) as (h' & c & ->). rewrite app_assoc in Hp.
    replace (p ++ CRLF ++ CRLF) with ((p ++ [x0d; x0a; x0d]) ++ [x0a]) in Hp by (rewrite <- app_assoc; reflexivity).
    apply app_inj_tail in Hp as [_ ->]. apply in_or_app. right. now left. }
  destruct (first_lf h Hin) as (l & r & -> & Hl). rewrite <- app_assoc in Hrep.
  destruct (read_until_found x0a b l (r ++ rest) tail Hrep Hl Hcap) as (b' & E & Hrep' & Hcap').
  cbn [head_loop]. rewrite E. destruct (l ++ [x0a]) as [|y l'] eqn:El; [now destruct l|]. rewrite <- El.
  destruct (ends_head (buf ++ l ++ [x0a])) eqn:Eh.
  - apply ends_head_spec in Eh as (q & Eq).
    assert (r = []) as ->.
    { apply (Hmin q r). replace (buf ++ l ++ x0a :: r) with ((buf ++ l ++ [x0a]) ++ r) by (rewrite <- !app_assoc; reflexivity).
      rewrite Eq, <- !app_assoc. reflexivity. }
    exists b'. split; [reflexivity|]. split; [exact Hrep'|congruence].
  - destruct (IH (buf ++ l ++ [x0a]) r b') as (b'' & E'' & H1 & H2).
    + exact Hrep'.
    + lia.
    + intros ->. assert (ends_head (buf ++ l ++ [x0a]) = true) by (apply ends_head_spec; eauto). congruence.
    + replace ((buf ++ l ++ [x0a]) ++ r) with (buf ++ l ++ x0a :: r) by (rewrite <- !app_assoc; reflexivity).
      split; eauto.
    + rewrite app_length in Hf. cbn in Hf. lia.
    + exists b''. rewrite E''. split; [|split; [exact H1|congruence]]. now rewrite <- !app_assoc.
Qed.

(** The head is found whatever the segmentation; everything behind it is left for the body. *)
Lemma read_head_found {intr} b h rest tail :
  rep intr b (h ++ rest) tail -> 0 < br_cap b -> complete_head h ->
  exists b', read_head b = (Ok (Some h), b') /\ rep intr b' rest tail /\ br_cap b' = br_cap b.
Proof.
  intros Hrep Hcap Hc. unfold read_head. apply (head_loop_found _ []); auto.
  - destruct Hc as [(p & ->) _]. destruct p; discriminate.
  - apply rep_length in Hrep. rewrite app_length in Hrep. unfold br_size in Hrep. lia.
Qed.

Lemma no_head_ends buf l : no_head (buf ++ l) -> forall l1 l2, l = l1 ++ l2 -> ends_head (buf ++ l1) = false.
Proof.
  intros Hn l1 l2 ->. destruct (ends_head (buf ++ l1)) eqn:E; [|reflexivity].
  apply ends_head_spec in E as (p & E). destruct (Hn p l2). rewrite app_assoc, E, <- !app_assoc. reflexivity.
Qed.

Lemma head_loop_end fuel buf l b tail :
  (tail = [] \/ exists r, tail = Fail EOther :: r) ->
  rep true b l tail -> 0 < br_cap b -> no_head (buf ++ l) -> length l < fuel ->
  match tail with
  | [] => exists b', head_loop fuel buf b = (Ok None, b')
  | _ => exists b', head_loop fuel buf b = (Err EOther, b')
  end.
Proof.
  intros Htail. revert buf l b. induction fuel as [|fuel IH]; intros buf l b Hrep Hcap Hn Hf; [lia|].
  destruct (in_dec byte_dec x0a l) as [Hin|Hin].
  - destruct (first_lf l Hin) as (l1 & r & -> & Hl).
    destruct (read_until_found x0a b l1 r tail Hrep Hl Hcap) as (b' & E & Hrep' & Hcap').
    cbn [head_loop]. rewrite E. destruct (l1 ++ [x0a]) as [|y l'] eqn:El; [now destruct l1|]. rewrite <- El.
    rewrite (no_head_ends _ _ Hn (l1 ++ [x0a]) r) by (rewrite <- app_assoc; reflexivity).
    apply (IH (buf ++ l1 ++ [x0a]) r b'); [exact Hrep'|lia| |rewrite app_length in Hf; cbn in Hf; lia].
    replace ((buf ++ l1 ++ [x0a]) ++ r) with (buf ++ l1 ++ x0a :: r) by (rewrite <- !app_assoc; reflexivity). exact Hn.
  - destruct Htail as [-> | (r & ->)].
    + destruct (read_until_eof x0a b l Hrep Hin Hcap) as (b' & E & Hrep' & Hcap').
      cbn [head_loop]. rewrite E. destruct l as [|c l]; [eauto|].
      rewrite (no_head_ends _ _ Hn (c :: l) []) by now rewrite app_nil_r.
      apply (IH (buf ++ c :: l) [] b'); [exact Hrep'|lia|now rewrite app_nil_r|cbn in *; lia].
    + destruct (read_until_err x0a b l r Hrep Hin Hcap) as (b' & E). cbn [head_loop]. rewrite E. eauto.
Qed.

Lemma read_head_eof b l : rep true b l [] -> 0 < br_cap b -> no_head l ->
  exists b', read_head b = (Ok None, b').
Proof.
  intros H1 H2 H3. unfold read_head. apply (head_loop_end _ [] l b []); auto.
  apply rep_length in H1. unfold br_size in H1. lia.
Qed.
Lemma read_head_err b l r : rep true b l (Fail EOther :: r) -> 0 < br_cap b -> no_head l ->
  exists b', read_head b = (Err EOther, b').
Proof.
  intros H1 H2 H3. unfold read_head. apply (head_loop_end _ [] l b (Fail EOther :: r)); eauto.
  apply rep_length in H1. unfold br_size in H1. lia.
Qed.

Lemma head_loop_total fuel buf b : br_size b < fuel ->
  fst (head_loop fuel buf b) <> Panic /\ fst (head_loop fuel buf b) <> OutOfFuel.
Proof.
  revert buf b. induction fuel as [|fuel IH]; intros buf b Hf; [lia|]. cbn [head_loop].
  destruct (read_until_any x0a b) as [(d & b' & -> & H & _)|(e & b' & ->)]; [|cbn; split; discriminate].
  destruct d as [|c d]; [cbn; split; discriminate|]. destruct (ends_head (buf ++ c :: d)); [cbn; split; discriminate|].
  apply IH. cbn in H. lia.
Qed.
Lemma read_head_total b : fst (read_head b) <> Panic /\ fst (read_head b) <> OutOfFuel.
Proof. apply head_loop_total. unfold br_size. lia. Qed.
