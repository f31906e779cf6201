(** * C41: the MIME types puck writes, on characters *)
From Verif Require Import Base Utf8 HttpModel MimeChars.
Ltac Zify.zify_post_hook ::= Z.div_mod_to_equations.
Local Open Scope N_scope.

Lemma yields_fun s l l' : yields s l -> yields s l' -> l = l'.
Proof.
  intros H. revert l'. induction H as [s s1 E|s c s1 l E H IH]; intros l' H'; inversion H'; subst; try congruence.
  rewrite E in H0. injection H0 as <- <-. f_equal. auto.
Qed.
Lemma yields_end' : yields EscDone [].
Proof. eapply yields_end. reflexivity. Qed.
Lemma yields_char c : yields (EscChar c) [c].
Proof. eapply yields_next; [reflexivity|apply yields_end']. Qed.
Lemma yields_backslash c : yields (EscBackslash c) [92; c].
Proof. eapply yields_next; [reflexivity|apply yields_char]. Qed.

(** The iterator gives a quote or a backslash with a backslash before it, every other character alone; it ends; and the
    number of characters it announces is, at every moment, the number still to come. *)
Theorem C41_escape_iterator : forall c,
  yields (esc_start c) (if (c =? 34) || (c =? 92) then [92; c] else [c]) /\
  (forall l, yields (esc_start c) l -> l = if (c =? 34) || (c =? 92) then [92; c] else [c]) /\
  (forall s l, yields s l -> esc_size_hint s = (N.of_nat (length l), Some (N.of_nat (length l)))) /\
  (forall s, exists l, yields s l).
Proof.
  intros c. assert (yields (esc_start c) (if (c =? 34) || (c =? 92) then [92; c] else [c])) as H.
  { unfold esc_start. destruct ((c =? 34) || (c =? 92)); [apply yields_backslash|apply yields_char]. }
  split; [exact H|]. split; [intros l Hl; exact (yields_fun _ _ _ Hl H)|]. split.
  - intros [|x|x] l Hl; [rewrite (yields_fun _ _ _ Hl yields_end')|rewrite (yields_fun _ _ _ Hl (yields_char x))|rewrite (yields_fun _ _ _ Hl (yields_backslash x))]; reflexivity.
  - intros [|x|x]; eexists; [apply yields_end'|apply yields_char|apply yields_backslash].
Qed.
Print Assumptions C41_escape_iterator.

Lemma encode_app a b : encode (a ++ b) = encode a ++ encode b.
Proof. unfold encode. now rewrite map_app, concat_app. Qed.
Lemma chars_encode_bs s : Forall (fun b => b2n b < 128) s -> encode (map b2n s) = s.
Proof.
  unfold encode. induction 1 as [|b s Hb Hs IH]; [reflexivity|]. cbn [map concat]. rewrite IH, enc1 by exact Hb. cbn [app]. now rewrite n2b_b2n.
Qed.
Lemma ascii_all s : forallb (fun b => b2n b <? 128) s = true -> Forall (fun b => b2n b < 128) s.
Proof. rewrite forallb_forall, Forall_forall. intros H b Hb. apply N.ltb_lt. auto. Qed.
Lemma encode_char c : scalar c -> (c < 128 /\ utf8_encode c = [n2b c]) \/ (128 <= c /\ utf8_encode c <> [] /\ Forall (fun b => 128 <= b2n b) (utf8_encode c)).
Proof.
  intros S. assert (c < 1114112) as Hc by (destruct S; lia). destruct (N.ltb_spec c 128) as [H|H]; [left; split; [exact H|now apply enc1]|]. right. split; [exact H|].
  destruct (N.ltb_spec c 2048) as [H2|H2]; [rewrite enc2 by lia|destruct (N.ltb_spec c 65536) as [H3|H3]; [rewrite enc3 by lia|rewrite enc4 by lia]];
    (split; [discriminate|]); repeat constructor; rewrite b2n_n2b, N.mod_small by lia; lia.
Qed.
Lemma high_not_token b : 128 <= b2n b -> is_token_byte b = false /\ escape_byte b = [b].
Proof.
  intros H. assert (forallb (fun b => if 128 <=? b2n b then negb (is_token_byte b) && match escape_byte b with [x] => byte_eqb x b | _ => false end else true) all_bytes = true) as A by (vm_compute; reflexivity).
  rewrite forallb_forall in A. assert (In b all_bytes) as Hin by (destruct b; vm_compute; tauto). apply A in Hin. apply N.leb_le in H. rewrite H in Hin.
  apply andb_true_iff in Hin as [H1 H2]. apply negb_true_iff in H1. split; [exact H1|]. destruct (escape_byte b) as [|x [|]]; try discriminate. apply byte_eqb_eq in H2. now subst.
Qed.
Lemma low_token c : c < 128 -> is_token_byte (n2b c) = token_char c /\ escape_byte (n2b c) = map n2b (if (c =? 34) || (c =? 92) then [92; c] else [c]).
Proof.
  intros H. assert (forallb (fun k => let c := N.of_nat k in Bool.eqb (is_token_byte (n2b c)) (token_char c) && str_eqb (escape_byte (n2b c)) (map n2b (if (c =? 34) || (c =? 92) then [92; c] else [c]))) (seq 0 128) = true) as A by (vm_compute; reflexivity).
  rewrite forallb_forall in A. specialize (A (N.to_nat c)). rewrite N2Nat.id in A. assert (In (N.to_nat c) (seq 0 128)) as Hin by (apply in_seq; lia). apply A in Hin.
  apply andb_true_iff in Hin as [H1 H2]. apply Bool.eqb_prop in H1. apply str_eqb_eq in H2. auto.
Qed.
Lemma high_token c : 128 <= c -> token_char c = false.
Proof.
  intros H. unfold token_char. rewrite !orb_false_iff. repeat split; try (apply andb_false_iff; right; apply N.leb_gt; lia).
  cbn [existsb]. rewrite !orb_false_iff. repeat split; apply N.eqb_neq; lia.
Qed.
Lemma tokens_encode cs : Forall scalar cs -> forallb is_token_byte (encode cs) = forallb token_char cs.
Proof.
  unfold encode. induction 1 as [|c cs Hc Hs IH]; [reflexivity|]. cbn [map concat forallb]. rewrite forallb_app, IH. f_equal.
  destruct (encode_char c Hc) as [[H E]|(H & Hne & F)].
  - rewrite E. cbn [forallb]. now rewrite andb_true_r, (proj1 (low_token c H)).
  - rewrite (high_token c H). destruct (utf8_encode c) as [|b l]; [congruence|]. inversion F as [|? ? Hb _]. cbn [forallb]. now rewrite (proj1 (high_not_token b Hb)).
Qed.
Lemma escapes_encode cs : Forall scalar cs -> forall l, escapes cs l -> escape_value (encode cs) = encode l.
Proof.
  intros S l H. induction H as [|c cs l ls Hy He IH]; [reflexivity|]. inversion S as [|? ? Hc Hs]; subst. rewrite encode_app, <- (IH Hs).
  unfold escape_value, encode. cbn [map concat]. rewrite flat_map_app. f_equal. destruct (C41_escape_iterator c) as (_ & U & _). rewrite (U l Hy). clear U Hy IH He.
  destruct (encode_char c Hc) as [[H E]|(H & _ & F)].
  - rewrite E. cbn [flat_map]. rewrite app_nil_r, (proj2 (low_token c H)). destruct ((c =? 34) || (c =? 92)); cbn [map concat app]; rewrite ?enc1 by lia; reflexivity.
  - replace ((c =? 34) || (c =? 92)) with false by (symmetry; apply orb_false_iff; split; apply N.eqb_neq; lia). cbn [map concat]. rewrite app_nil_r.
    induction F as [|b w Hb F IHw]; [reflexivity|]. cbn [flat_map]. rewrite (proj2 (high_not_token b Hb)), IHw. reflexivity.
Qed.
Lemma escapes_total cs : exists l, escapes cs l.
Proof. induction cs as [|c cs (l & IH)]; [exists []; constructor|]. eexists. constructor; [apply (C41_escape_iterator c)|exact IH]. Qed.
Lemma encode_nil cs : encode cs = [] <-> cs = [].
Proof.
  split; [|now intros ->]. destruct cs as [|c cs]; [reflexivity|]. unfold encode. cbn [map concat]. intros H. apply app_eq_nil in H as [H _]. exfalso.
  unfold utf8_encode in H. destruct (c <? 128); [discriminate|]. destruct (c <? 2048); [discriminate|]. destruct (c <? 65536); discriminate.
Qed.
Lemma param_encode n v l : Forall scalar v -> param_written n v l -> format_param (encode n, encode v) = encode l.
Proof.
  intros S H. unfold format_param. rewrite (tokens_encode v S). destruct H as [Ht Hne|q Hq He].
  - rewrite Ht. assert (encode v <> []) as E by (now rewrite encode_nil). destruct (encode v) as [|b w] eqn:Ev; [congruence|]. cbn [negb andb]. rewrite !encode_app, Ev. reflexivity.
  - rewrite !encode_app, (escapes_encode v S q He). assert (forallb token_char v && negb match encode v with [] => true | _ => false end = false) as ->; [|reflexivity].
    destruct Hq as [-> | ->]; [reflexivity|]. reflexivity.
Qed.
Lemma params_encode ps l : Forall (fun p => Forall scalar (snd p)) ps -> params_written ps l ->
  flat_map format_param (map (fun p => (encode (fst p), encode (snd p))) ps) = encode l.
Proof.
  intros S H. induction H as [|n v ps l ls Hp Hps IH]; [reflexivity|]. inversion S as [|? ? Hv Hs]; subst. cbn [map flat_map fst snd] in *. rewrite encode_app, <- (IH Hs). f_equal. now apply param_encode.
Qed.
(** The text of a MIME type exists and is unique, and its bytes are those of the byte model, so whatever C41 says of bytes
    holds of what the code does with characters. *)
Theorem C41_characters : forall e utf8 ps, Forall (fun p => Forall scalar (snd p)) ps ->
  (exists out, mime_written e utf8 ps out) /\
  forall out, mime_written e utf8 ps out ->
    encode out = mime_format (Mime (encode e) utf8 (map (fun p => (encode (fst p), encode (snd p))) ps)).
Proof.
  intros e utf8 ps S. split.
  - assert (exists l, params_written ps l) as (l & Hl); [|eexists; exists l; split; [exact Hl|reflexivity]].
    clear S. induction ps as [|[n v] ps (l & IH)]; [exists []; constructor|].
    assert (exists x, param_written n v x) as (x & Hx).
    { destruct (escapes_total v) as (q & Hq). destruct (forallb token_char v) eqn:E.
      - destruct v as [|c v]; [eexists; apply written_quoted; [now right|exact Hq]|]. eexists. apply written_bare; [exact E|discriminate].
      - eexists. apply written_quoted; [now left|exact Hq]. }
    eexists. constructor; eassumption.
  - intros out (l & Hl & ->). unfold mime_format. cbn [essence is_utf8_mime params]. rewrite !encode_app, (params_encode ps l S Hl). f_equal. f_equal. now destruct utf8.
Qed.
Print Assumptions C41_characters.
(** Two characters outside ASCII and a quote: the value is quoted, the quote escaped. *)
Example C41_characters_example : exists out, mime_written (chars (bs "a/b")) true [(chars (bs "x"), [233; 34; 8364])] out /\
  out = chars (bs "a/b;charset=utf-8;x=""") ++ [233; 92; 34; 8364] ++ chars (bs """") /\ Forall scalar [233; 34; 8364].
Proof.
  eexists. split; [|split; [reflexivity|repeat constructor; unfold scalar; lia]].
  exists ((chars (bs ";") ++ chars (bs "x") ++ chars (bs "=""") ++ [233; 92; 34; 8364] ++ chars (bs """")) ++ []). split; [|reflexivity].
  apply params_cons; [|constructor]. apply (written_quoted _ _ [233; 92; 34; 8364]); [now left|].
  apply (escapes_cons 233 _ [233]); [apply yields_char|]. apply (escapes_cons 34 _ [92; 34]); [apply yields_backslash|]. apply (escapes_cons 8364 _ [8364]); [apply yields_char|constructor].
Qed.
