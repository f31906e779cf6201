(** A model of the dependency httparse 1.7 (Request::parse, Response::parse on a complete head).
    It is not part of /repo: no theorem about puck assumes that httparse behaves like this file.
    The theorems quantify over all parsers satisfying [reads_requests] / [reads_responses]; this file
    shows that those hypotheses are met by a parser with httparse's documented behaviour. *)
From Verif Require Import Base HttpModel HttpSpec.
Ltac Zify.zify_post_hook ::= Z.div_mod_to_equations.

(** The head parser understands well-formed request / response heads. *)
Definition reads_requests (hp : str -> hp_request) : Prop := forall meth target fs,
  request_head_ok meth target fs ->
  hp (request_head meth target fs) = HpReq HpComplete (Some meth) (Some target) (map field_pair fs).
Definition reads_responses (hp : str -> hp_response) : Prop := forall code reason fs,
  response_head_ok code reason fs ->
  hp (response_head code reason fs) = HpResp HpComplete (Some code) (Some reason) (map field_pair fs).

Definition vis (b : byte) : bool := ((33 <=? b2n b) && (b2n b <=? 126))%N.
Definition name_char (b : byte) : bool := is_token_byte b.
Definition value_char (b : byte) : bool :=
  ((b2n b =? 9) || ((32 <=? b2n b) && (b2n b <=? 126)) || (128 <=? b2n b))%N.
Definition is_blank (b : byte) : bool := byte_eqb b x20 || byte_eqb b x09.

Fixpoint span (p : byte -> bool) (s : str) : str * str :=
  match s with
  | [] => ([], [])
  | c :: s' => if p c then let '(a, b) := span p s' in (c :: a, b) else ([], s)
  end.
(** Some (token, rest) when a non-empty token is followed by a space. *)
Definition word (p : byte -> bool) (s : str) : option (str * str) :=
  match span p s with
  | (c :: t, x20 :: rest) => Some (c :: t, rest)
  | _ => None
  end.
Fixpoint strip_prefix (pre s : str) : option str :=
  match pre, s with
  | [], _ => Some s
  | p :: pre', c :: s' => if byte_eqb p c then strip_prefix pre' s' else None
  | _ :: _, [] => None
  end.
Definition newline (s : str) : option str :=
  match s with
  | x0d :: x0a :: r => Some r
  | x0a :: r => Some r
  | _ => None
  end.
Fixpoint rtrim (s : str) : str :=
  match s with
  | [] => []
  | c :: s' => match rtrim s' with [] => if is_blank c then [] else [c] | t => c :: t end
  end.

(** One header line. *)
Definition header_at (s : str) : option (str * str * str) :=
  match span name_char s with
  | ([], _) => None
  | (name, r) =>
      match strip_prefix (bs ":") r with
      | None => None
      | Some r =>
          let '(_, r) := span is_blank r in
          let '(v, r) := span value_char r in
          match newline r with
          | None => None
          | Some r => Some (name, rtrim v, r)
          end
      end
  end.
Fixpoint headers_at (slots : nat) (s : str) : list (str * str) * bool :=
  match newline s with
  | Some _ => ([], true)
  | None =>
      match slots with
      | O => ([], false)
      | S n =>
          match header_at s with
          | None => ([], false)
          | Some (k, v, r) => let '(hs, ok) := headers_at n r in ((k, v) :: hs, ok)
          end
      end
  end.
(** After an error httparse leaves all slots in place: those not filled are empty headers. *)
Definition slots_left (hs : list (str * str)) (ok : bool) : list (str * str) :=
  if ok then hs else hs ++ repeat ([], []) (20 - length hs).

Fixpoint skip_empty (fuel : nat) (s : str) : str :=
  match fuel, newline s with
  | S f, Some r => skip_empty f r
  | _, _ => s
  end.

Definition httparse_request (s : str) : hp_request :=
  let none := repeat ([], []) 20 in
  match skip_empty (length s) s with
  | [] => HpReq HpPartial None None none
  | s1 =>
      match word vis s1 with
      | None => HpReq HpError None None none
      | Some (m, s2) =>
          match word vis s2 with
          | None => HpReq HpError (Some m) None none
          | Some (t, s3) =>
              match strip_prefix (bs "HTTP/1.1") s3, strip_prefix (bs "HTTP/1.0") s3 with
              | Some r, _ | None, Some r =>
                  match newline r with
                  | None => HpReq HpError (Some m) (Some t) none
                  | Some r =>
                      let '(hs, ok) := headers_at 20 r in
                      HpReq (if ok then HpComplete else HpError) (Some m) (Some t) (slots_left hs ok)
                  end
              | None, None => HpReq HpError (Some m) (Some t) none
              end
          end
      end
  end.

Definition digit3 (s : str) : option (N * str) :=
  match s with
  | a :: b :: c :: r =>
      let d x := ((48 <=? b2n x) && (b2n x <=? 57))%N in
      if d a && d b && d c
      then Some (((b2n a - 48) * 100 + (b2n b - 48) * 10 + (b2n c - 48))%N, r) else None
  | _ => None
  end.
Definition reason_ok (b : byte) : bool := ((b2n b =? 9) || ((32 <=? b2n b) && (b2n b <=? 126)))%N.

Definition httparse_response (s : str) : hp_response :=
  let none := repeat ([], []) 20 in
  match strip_prefix (bs "HTTP/1.1 ") s, strip_prefix (bs "HTTP/1.0 ") s with
  | Some r, _ | None, Some r =>
      match digit3 r with
      | None => HpResp HpError None None none
      | Some (code, r) =>
          match r with
          | x20 :: r =>
              let '(reason, r) := span reason_ok r in
              match newline r with
              | None => HpResp HpError (Some code) None none
              | Some r => let '(hs, ok) := headers_at 20 r in
                          HpResp (if ok then HpComplete else HpError) (Some code) (Some reason) (slots_left hs ok)
              end
          | _ =>
              match newline r with
              | None => HpResp HpError (Some code) None none
              | Some r => let '(hs, ok) := headers_at 20 r in
                          HpResp (if ok then HpComplete else HpError) (Some code) (Some []) (slots_left hs ok)
              end
          end
      end
  | None, None => HpResp HpError None None none
  end.

(* ------------------------------------------------------------------ *)
Lemma span_app p a b : Forall (fun c => p c = true) a -> (forall c b', b = c :: b' -> p c = false) ->
  span p (a ++ b) = (a, b).
Proof.
  induction 1 as [|c a Hc Ha IH]; intros Hb; cbn [app span].
  - destruct b as [|c b']; [reflexivity|]. cbn [span]. now rewrite (Hb c b').
  - rewrite Hc, IH; auto.
Qed.

Lemma in_sweep (l : str) (p : byte -> bool) : forallb p l = true -> forall b, In b l -> p b = true.
Proof. intros H. now apply forallb_forall. Qed.
Lemma tchar_name b : tchar b -> name_char b = true.
Proof. apply in_sweep. vm_compute. reflexivity. Qed.
Lemma tchar_vis b : tchar b -> vis b = true.
Proof. apply in_sweep. vm_compute. reflexivity. Qed.
Lemma target_vis b : target_char b -> vis b = true.
Proof. apply in_sweep. vm_compute. reflexivity. Qed.
Lemma field_value b : field_char b -> value_char b = true.
Proof. unfold field_char, value_char. lia. Qed.
Lemma reason_reason b : reason_char b -> reason_ok b = true.
Proof. unfold reason_char, reason_ok. lia. Qed.
Lemma blank_is b : blank b <-> is_blank b = true.
Proof. unfold blank, is_blank. rewrite orb_true_iff, !byte_eqb_eq. tauto. Qed.
Lemma blank_value b : blank b -> value_char b = true.
Proof. intros [-> | ->]; reflexivity. Qed.

Lemma rtrim_blank s : Forall blank s -> rtrim s = [].
Proof. induction 1 as [|c s Hc Hs IH]; cbn [rtrim]; [reflexivity|]. rewrite IH. apply blank_is in Hc. now rewrite Hc. Qed.
Lemma rtrim_app v t : Forall blank t -> (forall c w, v = w ++ [c] -> ~ blank c) -> rtrim (v ++ t) = v.
Proof.
  intros Ht. induction v as [|c v IH]; intros Hv; cbn [app rtrim]; [now apply rtrim_blank|].
  rewrite IH by (intros c' w ->; now apply (Hv c' (c :: w))).
  destruct v as [|c' v]; [|reflexivity].
  destruct (is_blank c) eqn:E; [|reflexivity]. apply blank_is in E. now destruct (Hv c [] eq_refl).
Qed.

Lemma newline_crlf r : newline (CRLF ++ r) = Some r.
Proof. reflexivity. Qed.

Lemma header_at_ok f r : field_ok f -> header_at (field_text f ++ r) = Some (f_name f, f_value f, r).
Proof.
  intros (Hn & Hn' & Hpre & Hpost & Hv & Hv1 & Hv2). unfold header_at, field_text. rewrite <- !app_assoc.
  rewrite span_app; [|eapply Forall_impl; [|exact Hn']; apply tchar_name|intros c b' [= <- <-]; reflexivity].
  destruct (f_name f) as [|n0 n]; [congruence|]. clear Hn. set (nm := n0 :: n).
  assert (forall x, strip_prefix (bs ":") (bs ":" ++ x) = Some x) as -> by reflexivity.
  assert (forall x y : str, Forall blank x -> Forall blank y -> Forall (fun c => is_blank c = true) (x ++ y)) as Hbl.
  { intros x y Hx Hy. apply Forall_app. split; (eapply Forall_impl; [|eassumption]); apply blank_is. }
  destruct (f_value f) as [|v0 v] eqn:Ev.
  - cbn [app]. rewrite app_assoc, span_app; [|now apply Hbl|intros c b' [= <- <-]; reflexivity].
    unfold CRLF. cbn [app span]. change (value_char x0d) with false. reflexivity.
  - rewrite span_app.
    2: { eapply Forall_impl; [|exact Hpre]; apply blank_is. }
    2: { intros c b' [= <- _]. destruct (is_blank v0) eqn:Eb; auto. apply blank_is in Eb. now destruct (Hv1 v0 v eq_refl). }
    rewrite (app_assoc (v0 :: v)), span_app.
    2: { apply Forall_app. split; (eapply Forall_impl; [|eassumption]); [apply field_value|apply blank_value]. }
    2: { intros c b' [= <- <-]. reflexivity. }
    rewrite newline_crlf, rtrim_app; auto.
Qed.

Lemma tchar_not_nl b : tchar b -> byte_eqb b x0d = false /\ byte_eqb b x0a = false.
Proof.
  intros H. apply tchar_name in H. revert H.
  assert (implb (name_char b) (negb (byte_eqb b x0d) && negb (byte_eqb b x0a)) = true) as H.
  { apply (byte_sweep (fun b => implb (name_char b) (negb (byte_eqb b x0d) && negb (byte_eqb b x0a)))). vm_compute. reflexivity. }
  intros E. rewrite E in H. cbn in H. apply andb_true_iff in H. now rewrite !negb_true_iff in H.
Qed.

Lemma newline_none c s : byte_eqb c x0d = false -> byte_eqb c x0a = false -> newline (c :: s) = None.
Proof. destruct c; try reflexivity; discriminate. Qed.

Lemma headers_at_ok fs n r : Forall field_ok fs -> length fs <= n ->
  headers_at n (flat_map field_text fs ++ CRLF ++ r) = (map field_pair fs, true).
Proof.
  intros H. revert n. induction H as [|f fs Hf Hfs IH]; intros n Hn.
  - destruct n; reflexivity.
  - destruct n as [|n]; cbn [length] in Hn; [lia|]. cbn [flat_map map]. rewrite <- app_assoc. cbn [headers_at].
    assert (newline (field_text f ++ flat_map field_text fs ++ CRLF ++ r) = None) as ->.
    { destruct Hf as (Hne & Ht & _). unfold field_text. destruct (f_name f) as [|c nm]; [congruence|].
      inversion_clear Ht. destruct (tchar_not_nl c); auto. cbn [app]. now apply newline_none. }
    rewrite header_at_ok by exact Hf. rewrite IH by lia. reflexivity.
Qed.

Lemma word_ok p t rest : t <> [] -> Forall (fun c => p c = true) t -> p x20 = false ->
  word p (t ++ bs " " ++ rest) = Some (t, rest).
Proof.
  intros Hne Ht Hp. unfold word. rewrite span_app; [|exact Ht|intros c b' [= <- <-]; exact Hp].
  destruct t; [congruence|reflexivity].
Qed.

Lemma httparse_reads_requests : reads_requests httparse_request.
Proof.
  intros m t fs (Hm & Hm' & Ht & Ht' & Hfs & Hlen). unfold httparse_request.
  assert (skip_empty (length (request_head m t fs)) (request_head m t fs) = request_head m t fs) as ->.
  { unfold request_head. destruct m as [|c m]; [congruence|]. inversion_clear Hm'. destruct (tchar_not_nl c); auto.
    cbn [app length skip_empty]. now rewrite newline_none. }
  unfold request_head. destruct (m ++ bs " " ++ t ++ bs " HTTP/1.1" ++ CRLF ++ flat_map field_text fs ++ CRLF) eqn:E.
  { destruct m; [congruence|discriminate]. }
  rewrite <- E. clear E l b.
  rewrite word_ok; [|exact Hm|eapply Forall_impl; [|exact Hm']; apply tchar_vis|reflexivity].
  change (bs " HTTP/1.1" ++ ?x) with (bs " " ++ bs "HTTP/1.1" ++ x).
  rewrite word_ok; [|exact Ht|eapply Forall_impl; [|exact Ht']; apply target_vis|reflexivity].
  assert (forall x, strip_prefix (bs "HTTP/1.1") (bs "HTTP/1.1" ++ x) = Some x) as -> by reflexivity.
  rewrite newline_crlf, <- (app_nil_r CRLF), headers_at_ok by auto. reflexivity.
Qed.

Lemma digit3_code code r : (100 <= code <= 999)%N -> digit3 (code_text code ++ r) = Some (code, r).
Proof.
  intros H. unfold code_text, digit3. cbn [app]. rewrite !b2n_n2b.
  rewrite (N.mod_small (48 + code / 100) 256), (N.mod_small (48 + (code / 10) mod 10) 256), (N.mod_small (48 + code mod 10) 256) by lia.
  replace ((48 <=? 48 + code / 100) && (48 + code / 100 <=? 57))%N with true by lia.
  replace ((48 <=? 48 + (code / 10) mod 10) && (48 + (code / 10) mod 10 <=? 57))%N with true by lia.
  replace ((48 <=? 48 + code mod 10) && (48 + code mod 10 <=? 57))%N with true by lia.
  cbn [andb]. f_equal. f_equal. lia.
Qed.

Lemma httparse_reads_responses : reads_responses httparse_response.
Proof.
  intros c reason fs (Hc & Hr & Hfs & Hlen). unfold httparse_response, response_head.
  assert (forall x, strip_prefix (bs "HTTP/1.1 ") (bs "HTTP/1.1 " ++ x) = Some x) as -> by reflexivity.
  rewrite digit3_code by exact Hc. change (bs " " ++ ?x) with (x20 :: x). cbv iota beta.
  rewrite span_app; [|eapply Forall_impl; [|exact Hr]; apply reason_reason|intros ? ? [= <- <-]; reflexivity].
  rewrite newline_crlf, <- (app_nil_r CRLF), headers_at_ok by auto. reflexivity.
Qed.
