(** Lemmas about the URL specification. *)
From Verif Require Import Base Num UrlSpec.
From Coq Require Import Lia.

Definition segs_text (segs : list str) : str := flat_map (fun p => bs "/" ++ p) segs.

Lemma strip_end_id s : Forall (fun b => (32 < b2n b)%N) s -> strip_end s = s.
Proof.
  induction 1 as [|c s Hc Hs IH]; [reflexivity|]. cbn [strip_end]. rewrite IH. destruct s; [|reflexivity].
  destruct (N.leb_spec (b2n c) 32); [lia|reflexivity].
Qed.
Lemma cleaned_id s : Forall (fun b => (32 < b2n b)%N) s -> cleaned s = s.
Proof.
  intros H. unfold cleaned. rewrite strip_end_id by exact H. induction H as [|c s Hc Hs IH]; [reflexivity|].
  cbn [filter]. assert (tab_or_newline c = false) as -> by (unfold tab_or_newline; rewrite !orb_false_iff; lia). cbn [negb]. now rewrite IH.
Qed.
Lemma after_app p s t : Forall (fun b => p b = true) s -> after p (s ++ t) = after p t.
Proof. induction 1 as [|c s Hc Hs IH]; [reflexivity|]. cbn [app after]. now rewrite Hc. Qed.
Lemma after_stop p c s : p c = false -> after p (c :: s) = c :: s.
Proof. intros H. cbn [after]. now rewrite H. Qed.
Lemma while_app p s t : Forall (fun b => p b = true) s -> while p (s ++ t) = s ++ while p t.
Proof. induction 1 as [|c s Hc Hs IH]; [reflexivity|]. cbn [app while]. now rewrite Hc, IH. Qed.

(** The path text of "http://" host rest, when the host is only a host and rest begins the path (or there is none). *)
Lemma raw_path_host h rest : host_only h -> Forall (fun b => (32 < b2n b)%N) rest ->
  (rest = [] \/ exists c t, rest = c :: t /\ (is_slash c = true \/ starts_query c = true)) ->
  raw_path (bs "http://" ++ h ++ rest) = while (fun b => negb (starts_query b)) rest.
Proof.
  intros [Hne Hh] Hr Hc. unfold raw_path.
  assert (Forall (fun b => (32 < b2n b)%N) (bs "http://" ++ h ++ rest)) as Hall.
  { apply Forall_app. split; [repeat constructor|]. apply Forall_app. split; [|exact Hr]. eapply Forall_impl; [|exact Hh]. intros b H. apply H. }
  rewrite cleaned_id by exact Hall. unfold behind_scheme.
  change (starts_with (bs "https:") (bs "http://" ++ h ++ rest)) with false. change (skipn 5 (bs "http://" ++ h ++ rest)) with (x2f :: x2f :: h ++ rest).
  cbv iota. cbn [after]. change (is_slash x2f) with true. cbv iota.
  assert (after is_slash (h ++ rest) = h ++ rest) as ->.
  { destruct h as [|c h]; [congruence|]. inversion Hh as [|? ? Hc0 _]; subst. cbn [app]. apply after_stop. apply Hc0. }
  rewrite after_app.
  2: { eapply Forall_impl; [|exact Hh]. intros b (H1 & H2 & _). now rewrite H1, H2. }
  destruct Hc as [->|(c & t & -> & Hc)]; [reflexivity|]. rewrite after_stop; [reflexivity|]. destruct Hc as [-> | ->]; [reflexivity|]. now destruct (is_slash c).
Qed.

Lemma segments_host h rest : host_only h -> Forall (fun b => (32 < b2n b)%N) rest ->
  (rest = [] \/ exists c t, rest = c :: t /\ (is_slash c = true \/ starts_query c = true)) ->
  url_path_segments (bs "http://" ++ h ++ rest) = target_segments rest.
Proof.
  intros Hh Hr Hc. unfold url_path_segments, raw_segments, target_segments. rewrite (raw_path_host h rest Hh Hr Hc).
  now destruct (while _ rest).
Qed.

(** Plain segments. *)
Lemma own_not_query b : own_byte b -> starts_query b = false.
Proof.
  intros [_ H]. unfold starts_query. destruct (byte_eqb b x3f) eqn:E1; [apply byte_eqb_eq in E1; subst; discriminate H|].
  destruct (byte_eqb b x23) eqn:E2; [apply byte_eqb_eq in E2; subst; discriminate H|]. reflexivity.
Qed.
Lemma cut_slashes_own s : Forall own_byte s -> cut_slashes s = [s].
Proof. induction 1 as [|c s [Hc _] Hs IH]; [reflexivity|]. cbn [cut_slashes]. now rewrite Hc, IH. Qed.
Lemma cut_slashes_cons s t : Forall own_byte s -> cut_slashes (s ++ x2f :: t) = s :: cut_slashes t.
Proof. induction 1 as [|c s [Hc _] Hs IH]; [reflexivity|]. cbn [app cut_slashes]. now rewrite Hc, IH. Qed.
Lemma cut_segs s segs : Forall own_byte s -> Forall (Forall own_byte) segs -> cut_slashes (s ++ segs_text segs) = s :: segs.
Proof.
  intros Hs H. revert s Hs. induction H as [|p segs Hp H IH]; intros s Hs; cbn [segs_text flat_map].
  - rewrite app_nil_r. now apply cut_slashes_own.
  - change (s ++ (bs "/" ++ p) ++ flat_map (fun p => bs "/" ++ p) segs) with (s ++ x2f :: p ++ segs_text segs). rewrite cut_slashes_cons by exact Hs. now rewrite IH.
Qed.
Lemma encode_own s : Forall own_byte s -> encode_segment s = s.
Proof. induction 1 as [|c s [_ Hc] Hs IH]; [reflexivity|]. unfold encode_segment, encode_byte in *. cbn [flat_map]. rewrite Hc. cbn [app]. now rewrite IH. Qed.
Lemma resolve_own segs : Forall (fun s => ~ dot_segment s) segs -> segs <> [] -> forall acc, resolve acc segs = rev acc ++ segs.
Proof.
  induction 1 as [|s segs Hs H IH]; [congruence|]. intros _ acc. unfold dot_segment in Hs.
  assert (one_dot s = false) as E1 by (destruct (one_dot s); auto; exfalso; auto). assert (two_dots s = false) as E2 by (destruct (two_dots s); auto; exfalso; auto).
  destruct segs as [|s2 segs]; cbn [resolve]; rewrite E1, E2; [reflexivity|].
  change (resolve (s :: acc) (s2 :: segs) = rev acc ++ s :: s2 :: segs). rewrite IH by discriminate. cbn [rev]. now rewrite <- app_assoc.
Qed.
Lemma target_own segs q : segs <> [] -> Forall own_segment segs -> (q = [] \/ exists c t, q = c :: t /\ starts_query c = true) ->
  target_segments (segs_text segs ++ q) = segs.
Proof.
  intros Hne H Hq. unfold target_segments.
  assert (Forall (fun b => negb (starts_query b) = true) (segs_text segs)) as Hn.
  { clear Hne. induction H as [|s segs [Hs _] H IH]; [constructor|]. cbn [segs_text flat_map]. apply Forall_app. split; [|exact IH].
    constructor; [reflexivity|]. eapply Forall_impl; [|exact Hs]. intros b Hb. now rewrite own_not_query. }
  rewrite while_app by exact Hn.
  assert (while (fun b => negb (starts_query b)) q = []) as ->.
  { destruct Hq as [->|(c & t & -> & Hc)]; [reflexivity|]. cbn [while]. now rewrite Hc. }
  rewrite app_nil_r. destruct segs as [|s segs]; [congruence|]. change (segs_text (s :: segs)) with (x2f :: s ++ segs_text segs).
  inversion H as [|? ? Hs H']; subst. rewrite cut_segs; [|apply Hs|eapply Forall_impl; [|exact H']; intros a Ha; apply Ha].
  rewrite resolve_own; [|clear Hne Hn|discriminate].
  - cbn [rev app map]. f_equal; [apply encode_own; apply Hs|]. clear H Hn Hne. induction H' as [|x l Hx Hl IH]; [reflexivity|]. cbn [map]. now rewrite IH, encode_own by apply Hx.
  - apply Forall_map. eapply Forall_impl; [|exact H]. intros a Ha. rewrite encode_own by apply Ha. apply Ha.
Qed.

(** What no resolved path contains. *)
Definition path_byte (b : byte) : Prop := (33 <= b2n b <= 126)%N /\ is_slash b = false /\ path_encoded b = false.
Lemma hex_fine : forallb (fun n => let b := hex_char (N.of_nat n) in (33 <=? b2n b)%N && (b2n b <=? 126)%N && negb (is_slash b) && negb (path_encoded b)) (seq 0 16) = true.
Proof. vm_compute. reflexivity. Qed.
Lemma hex_path n : (n < 16)%N -> path_byte (hex_char n).
Proof.
  intros H. pose proof hex_fine as F. rewrite forallb_forall in F. specialize (F (N.to_nat n)). rewrite N2Nat.id in F. cbv zeta in F.
  assert (In (N.to_nat n) (seq 0 16)) as Hi by (apply in_seq; lia). apply F in Hi. rewrite !andb_true_iff, !negb_true_iff in Hi.
  destruct Hi as [[[H1 H2] H3] H4]. split; [lia|]. auto.
Qed.
Ltac Zify.zify_post_hook ::= Z.div_mod_to_equations.
Lemma encode_path s : Forall (fun b => is_slash b = false) s -> Forall path_byte (encode_segment s).
Proof.
  induction 1 as [|b s Hb H IH]; [constructor|]. unfold encode_segment in *. cbn [flat_map]. apply Forall_app. split; [|exact IH].
  unfold encode_byte. pose proof (b2n_lt b) as Hl. destruct (path_encoded b) eqn:E.
  - constructor; [split; [vm_compute; split; discriminate|split; reflexivity]|]. constructor; [apply hex_path; lia|]. constructor; [apply hex_path; lia|constructor].
  - constructor; [|constructor]. split; [|auto]. unfold path_encoded in E. rewrite !orb_false_iff in E. lia.
Qed.
Lemma cut_no_slash s : Forall (Forall (fun b => is_slash b = false)) (cut_slashes s).
Proof.
  induction s as [|c s IH]; [repeat constructor|]. cbn [cut_slashes]. destruct (is_slash c) eqn:E; [constructor; [constructor|exact IH]|].
  destruct (cut_slashes s) as [|p ps]; [repeat constructor; exact E|]. inversion IH; subst. constructor; [constructor|]; assumption.
Qed.
Lemma resolve_forall (P : str -> Prop) segs : P [] -> Forall (fun s => ~ dot_segment s -> P s) segs -> forall acc, Forall P acc -> Forall P (resolve acc segs).
Proof.
  intros P0. induction 1 as [|s segs Hs H IH]; intros acc Ha; [now apply Forall_rev|].
  assert (Forall P (tl acc)) as Ht by (destruct Ha; [constructor|assumption]).
  destruct (two_dots s) eqn:E2; [destruct segs; cbn [resolve]; rewrite E2; [apply Forall_rev; now constructor|now apply IH]|].
  destruct (one_dot s) eqn:E1; [destruct segs; cbn [resolve]; rewrite E2, E1; [apply Forall_rev; now constructor|now apply IH]|].
  assert (P s) as Hp by (apply Hs; intros [D|D]; congruence).
  destruct segs; cbn [resolve]; rewrite E2, E1; [apply Forall_rev; now constructor|]. apply IH. now constructor.
Qed.
Lemma resolve_nonempty segs : segs <> [] -> forall acc, resolve acc segs <> [].
Proof.
  induction segs as [|s segs IH]; [congruence|]. intros _ acc. destruct segs as [|s2 segs].
  - cbn [resolve]. assert (forall (l : list str) x, rev (x :: l) <> []) as G by (intros l x E; apply (f_equal (@length str)) in E; rewrite rev_length in E; discriminate).
    destruct (two_dots s); [apply G|]. destruct (one_dot s); apply G.
  - cbn [resolve]. destruct (two_dots s); [now apply IH|]. destruct (one_dot s); now apply IH.
Qed.
Lemma path_segments_fine s : url_path_segments s <> [] /\ Forall (fun p => ~ dot_segment p /\ Forall path_byte p) (url_path_segments s).
Proof.
  unfold url_path_segments. split.
  - apply resolve_nonempty. unfold raw_segments. destruct (raw_path s) as [|c t]; [discriminate|]. destruct t as [|d t]; [discriminate|]. cbn [cut_slashes].
    destruct (is_slash d); [discriminate|]. destruct (cut_slashes t); discriminate.
  - apply resolve_forall; [split; [intros [D|D]; vm_compute in D; discriminate|constructor]| |constructor].
    apply Forall_map. assert (Forall (Forall (fun b => is_slash b = false)) (raw_segments s)) as H.
    { unfold raw_segments. destruct (raw_path s); [repeat constructor|apply cut_no_slash]. }
    eapply Forall_impl; [|exact H]. intros a Ha Hd. split; [exact Hd|]. now apply encode_path.
Qed.
