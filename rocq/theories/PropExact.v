(** The exact forms of properties the code does not have: when does it go wrong, for all inputs. *)
From Verif Require Import Base HMap Num Io IoProofs Utf8 HttpModel HttpSpec Httparse HttpProofs HttpProofs2 HttpProofs3 HttpProofs4 HttpLemmas HttpLemmas2 WsModel WsSpec WsBridge WsProofs WsProofs2 WsProofs3 WsLemmas
  ComponentModel ComponentProofs2 SharedModel PropShared PropWs4 PropHttp FramingSpec PropHttp2 PropHttp3 Sha1 UpgradeModel UpgradeProofs PropUpgrade.
From Coq Require Import Lia.

(* ------------------------------------------------------------------ *)
(** ** C19: data after our close frame *)
Definition close_sent : rfc_frame := RFC true 0 8 None [].
Definition data_message (msg : message) : Prop := (exists t, msg = Text t) \/ (exists d, msg = Binary d).
Definition data_frame (f : rfc_frame) : Prop := rf_op f = 1%N \/ rf_op f = 2%N.
Definition sends_data (c : ws_op * returned) : Prop := exists msg, c = (OSend msg, Done) /\ data_message msg.
Lemma data_message_frame msg : data_frame (message_frame msg) <-> data_message msg.
Proof.
  unfold data_frame, data_message. split.
  - destruct msg as [p|p|t|d]; cbn; intros [H|H]; try discriminate; eauto.
  - intros [(t & ->)|(d & ->)]; cbn; auto.
Qed.
Lemma conv_ended e cs fs : conversation e cs fs -> e = true -> Forall (fun f => f <> close_sent) fs /\ (Exists data_frame fs <-> Exists sends_data cs).
Proof.
  induction 1 as [e|e msg cs fs H IH|p cs fs H IH|msg cs fs Hn H IH|cs fs H IH|cs fs H IH|cs fs H IH]; intros E; try discriminate.
  - split; [constructor|]. now rewrite !Exists_nil.
  - destruct (IH E) as [I1 I2]. split; [constructor; [|exact I1]; destruct msg; discriminate|]. rewrite !Exists_cons, I2, data_message_frame. unfold sends_data at 2. split; (intros [H1|H1]; [left|right; exact H1]).
    + eauto.
    + destruct H1 as (m' & [= <-] & Hd). exact Hd.
  - destruct (IH E) as [I1 I2]. split; [exact I1|]. rewrite Exists_cons, I2. split; [auto|]. intros [(m' & H1 & _)|H1]; [discriminate|exact H1].
Qed.
Lemma conv_open e cs fs : conversation e cs fs -> e = false ->
  ((exists f1 f2, fs = f1 ++ close_sent :: f2 /\ Exists data_frame f2) <->
   (exists c1 c2, cs = c1 ++ (ONext, Failed ConnectionClosed) :: c2 /\ Exists sends_data c2)).
Proof.
  assert (forall f fs, f <> close_sent -> (exists f1 f2, f :: fs = f1 ++ close_sent :: f2 /\ Exists data_frame f2) <-> (exists f1 f2, fs = f1 ++ close_sent :: f2 /\ Exists data_frame f2)) as Hf.
  { intros f fs0 Hne. split; intros (f1 & f2 & E & H).
    - destruct f1 as [|x f1]; injection E as -> E; [contradiction|eauto].
    - exists (f :: f1), f2. cbn. now rewrite E. }
  assert (forall c cs, c <> (ONext, Failed ConnectionClosed) -> (exists c1 c2, c :: cs = c1 ++ (ONext, Failed ConnectionClosed) :: c2 /\ Exists sends_data c2) <-> (exists c1 c2, cs = c1 ++ (ONext, Failed ConnectionClosed) :: c2 /\ Exists sends_data c2)) as Hc.
  { intros c cs0 Hne. split; intros (f1 & f2 & E & H).
    - destruct f1 as [|x f1]; injection E as -> E; [contradiction|eauto].
    - exists (c :: f1), f2. cbn. now rewrite E. }
  induction 1 as [e|e msg cs fs H IH|p cs fs H IH|msg cs fs Hn H IH|cs fs H IH|cs fs H IH|cs fs H IH]; intros E; try discriminate.
  - split; intros (x & y & H & _); now destruct x.
  - rewrite Hf, Hc by (try discriminate; destruct msg; discriminate). auto.
  - rewrite Hf, Hc by discriminate. auto.
  - rewrite Hc by discriminate. auto.
  - rewrite Hc by discriminate. auto.
  - destruct (conv_ended _ _ _ H eq_refl) as [H1 H2]. clear IH. split; intros (x & y & E' & HE).
    + exists [], cs. split; [reflexivity|]. apply H2. destruct x as [|x0 x]; [injection E' as ->; exact HE|injection E' as _ E1]. exfalso.
      rewrite Forall_forall in H1. apply (H1 close_sent); [|reflexivity]. rewrite E1. apply in_app_iff. right. now left.
    + exists [], fs. split; [reflexivity|]. apply H2. destruct x as [|x0 x]; [injection E' as ->; exact HE|injection E' as _ E1]. rewrite E1. apply Exists_app. right. now right.
Qed.
(** For every stream of client bytes and every sequence of calls: a data frame follows our close frame on the wire exactly
    when the program sends a text or binary message after [next] has told it that the connection is closed. *)
Theorem C19_exactly : forall m s ops rs w fs, machine_ok m -> small_ops ops ->
  calls m ops (ws_new s None) = Some (rs, w) -> frames_in (ws_out w) = Some fs ->
  ((exists before after, fs = before ++ RFC true 0 8 None [] :: after /\ Exists data_frame after) <->
   (exists before after, combine ops rs = before ++ (ONext, Failed ConnectionClosed) :: after /\ Exists sends_data after)).
Proof.
  intros m s ops rs w fs Hm Hs E Hf. destruct (C103_transcript m s ops rs w Hm Hs E) as (_ & fs' & C & F). rewrite F in Hf. injection Hf as <-.
  exact (conv_open _ _ _ C eq_refl).
Qed.
Print Assumptions C19_exactly.
Example C19_example : exists rs w, calls m32 [ONext; OSend (Text (bs "x"))] (ws_new close_stream None) = Some (rs, w) /\
  combine [ONext; OSend (Text (bs "x"))] rs = [] ++ (ONext, Failed ConnectionClosed) :: [(OSend (Text (bs "x")), Done)] /\ Exists sends_data [(OSend (Text (bs "x")), Done)].
Proof. eexists _, _. split; [vm_compute; reflexivity|]. split; [reflexivity|]. constructor. eexists. split; [reflexivity|]. left. eauto. Qed.

(* ------------------------------------------------------------------ *)
(** ** C37: lines in header values *)
Lemma split_on_apps c a b : split_on c (a ++ c :: b) = split_on c a ++ split_on c b.
Proof.
  induction a as [|x a IH]; cbn [app split_on].
  - now rewrite (proj2 (byte_eqb_eq c c) eq_refl).
  - destruct (byte_eqb x c); [now rewrite IH|]. rewrite IH. destruct (split_on c a) as [|p ps] eqn:E; [now apply split_on_nil in E|]. reflexivity.
Qed.
Definition breaks (s : str) : nat := length (filter (fun b => byte_eqb b x0a) s).
Lemma breaks_app a b : breaks (a ++ b) = breaks a + breaks b.
Proof. unfold breaks. now rewrite filter_app, app_length. Qed.
Lemma breaks_none s : breaks s = 0 <-> ~ In x0a s.
Proof.
  unfold breaks. induction s as [|x s IH]; [cbn; tauto|]. cbn [filter]. destruct (byte_eqb x x0a) eqn:E.
  - apply byte_eqb_eq in E as ->. cbn. split; [discriminate|]. intros H. exfalso. auto.
  - rewrite IH. cbn [In]. split; [|tauto]. intros H [->|Hi]; [|auto]. now rewrite (proj2 (byte_eqb_eq _ _) eq_refl) in E.
Qed.
Lemma lines_count s : length (split_on x0a s) = S (breaks s).
Proof.
  unfold breaks. induction s as [|x s IH]; [reflexivity|]. cbn [split_on filter]. destruct (byte_eqb x x0a); [cbn [length]; now rewrite IH|].
  destruct (split_on x0a s) as [|p ps] eqn:E; [now apply split_on_nil in E|]. exact IH.
Qed.
Lemma dec_breaks n : breaks (dec n) = 0.
Proof. apply breaks_none. apply dec_no_crlf. Qed.

(** Every header of a response is one line of the head exactly when the reason and all names and values are free of line
    feeds: the head then has one line per header, plus the status line and the empty line (and what follows the last
    line feed, which is empty). Line feeds are not refused, so any other number of lines can be produced. *)
Theorem C37_exactly : forall sz r content, hm_wf (rs_headers r) -> into_bytes sz (rs_body r) = Ok content ->
  exists head, encode sz r None = (head ++ content, Ok tt) /\
    (length (split_on x0a head) = length (rs_headers r) + 3 <->
     ~ In x0a (rs_reason r) /\ forall k v, In (k, v) (rs_headers r) -> ~ In x0a k /\ ~ In x0a v).
Proof.
  intros sz r content W Hb. destruct (encoder_exact sz r content W Hb) as (hs & P & _ & E).
  exists (bs "HTTP/1.1 " ++ dec (rs_status r) ++ bs " " ++ rs_reason r ++ CRLF ++ flat_map (fun kv => fst kv ++ bs ": " ++ snd kv ++ CRLF) hs ++ CRLF).
  split; [rewrite E; f_equal; now rewrite <- !app_assoc|]. rewrite lines_count, !breaks_app, dec_breaks.
  change (breaks (bs "HTTP/1.1 ")) with 0. change (breaks (bs " ")) with 0. change (breaks CRLF) with 1.
  assert (length (rs_headers r) = length hs) as -> by (now rewrite (Permutation_length P)).
  assert ((forall k v, In (k, v) (rs_headers r) -> ~ In x0a k /\ ~ In x0a v) <-> (forall k v, In (k, v) hs -> ~ In x0a k /\ ~ In x0a v)) as ->.
  { split; intros H k v Hi; apply H; (eapply Permutation_in; [|exact Hi]); [exact P|now apply Permutation_sym]. }
  rewrite <- (breaks_none (rs_reason r)).
  assert (length hs <= breaks (flat_map (fun kv => fst kv ++ bs ": " ++ snd kv ++ CRLF) hs) /\
    (breaks (flat_map (fun kv => fst kv ++ bs ": " ++ snd kv ++ CRLF) hs) = length hs <-> (forall k v, In (k, v) hs -> ~ In x0a k /\ ~ In x0a v))) as [H1 H2].
  { clear. induction hs as [|[k v] hs [I1 I2]]; [split; [cbn; lia|]; split; [intros _ k v []|reflexivity]|]. cbn [flat_map fst snd length]. rewrite !breaks_app. change (breaks (bs ": ")) with 0. change (breaks CRLF) with 1.
    split; [lia|]. split.
    - intros H k' v' [[= <- <-]|Hi]; [rewrite <- !breaks_none; lia|]. apply I2; [lia|exact Hi].
    - intros H. destruct (H k v (or_introl eq_refl)) as [Hk Hv]. rewrite <- breaks_none in Hk, Hv. enough (breaks (flat_map (fun kv => fst kv ++ bs ": " ++ snd kv ++ CRLF) hs) = length hs) by lia.
      apply I2. intros k' v' Hi. apply H. now right. }
  rewrite <- H2. lia.
Qed.
Print Assumptions C37_exactly.
(** Whatever line is put into a header value (or name) comes out as a line of its own, a field line of the attacker's
    choice or, with [line = []], the end of the head. *)
Theorem C37_injected_line_refuted : forall sz r content k v1 line v2, hm_wf (rs_headers r) -> into_bytes sz (rs_body r) = Ok content ->
  In (k, v1 ++ CRLF ++ line ++ CRLF ++ v2) (rs_headers r) -> ~ In x0a line ->
  exists head, encode sz r None = (head ++ content, Ok tt) /\ In (line ++ [x0d]) (split_on x0a head).
Proof.
  intros sz r content k v1 line v2 W Hb Hi Hl. destruct (encoder_exact sz r content W Hb) as (hs & P & _ & E).
  apply Permutation_sym in P. apply (Permutation_in _ P) in Hi. apply in_split in Hi as (h1 & h2 & ->). eexists. split.
  { rewrite E. f_equal. rewrite !app_assoc. reflexivity. }
  rewrite flat_map_app. cbn [flat_map fst snd]. rewrite <- !app_assoc. unfold CRLF at 3 4. cbn [app].
  match goal with |- In _ (split_on _ ?s) => assert (exists a b, s = a ++ x0a :: line ++ x0d :: x0a :: b) as (a & b & ->) end.
  { match goal with |- exists a b, ?x1 ++ ?x2 ++ ?x3 ++ ?x4 ++ ?x5 ++ ?x6 ++ ?x7 ++ ?x8 ++ ?x9 ++ ?x10 :: _ :: line ++ _ :: _ :: ?y = _ =>
      exists (x1 ++ x2 ++ x3 ++ x4 ++ x5 ++ x6 ++ x7 ++ x8 ++ x9 ++ [x10]), y end. now rewrite <- !app_assoc. }
  rewrite split_on_apps. apply in_app_iff. right. change (line ++ x0d :: x0a :: b) with (line ++ [x0d] ++ x0a :: b). rewrite app_assoc, split_on_app.
  - now left.
  - rewrite in_app_iff. intros [H|[H|[]]]; [auto|discriminate].
Qed.
Print Assumptions C37_injected_line_refuted.
(** Not vacuous: a cookie in a name the user chose. *)
Example C37_example_injected : let r := Response [(bs "X-User", bs "joe" ++ CRLF ++ bs "Set-Cookie: a=b" ++ CRLF ++ bs "x")] body_empty 200 (bs "OK") in
  hm_wf (rs_headers r) /\ into_bytes sz1 (rs_body r) = Ok [] /\ ~ In x0a (bs "Set-Cookie: a=b") /\ length (split_on x0a (fst (encode sz1 r None))) = 6.
Proof.
  cbv zeta. split; [repeat constructor; intros []|]. split; [reflexivity|]. split; [|vm_compute; reflexivity]. apply breaks_none. reflexivity.
Qed.

(* ------------------------------------------------------------------ *)
(** ** C80: two writers *)
Lemma reply_first st r f : In f (reply st r) -> exists b rest, concat (frame_calls f) = b :: rest /\ (b = x8a \/ b = x88).
Proof.
  destruct st; [|destruct r as [[]|]; intros []]. destruct r as [[p|p|d|d]|[]]; cbn [reply]; intros H; try destruct H as [<-|[]]; try destruct H; unfold frame_calls, frame_format; cbn; eauto.
Qed.
Lemma replies_first m n : forall w f, In f (replies m n w) -> exists b rest, concat (frame_calls f) = b :: rest /\ (b = x8a \/ b = x88).
Proof.
  induction n as [|n IH]; intros w f; cbn [replies]; [intros []|]. destruct (ws_next m w) as [[x|e| |] w']; try (intros []; fail);
    intros H; apply in_app_iff in H as [H|H]; eauto using reply_first.
Qed.
Lemma interleave_app {A} (a1 b1 c1 a2 b2 c2 : list A) : interleave a1 b1 c1 -> interleave a2 b2 c2 -> interleave (a1 ++ a2) (b1 ++ b2) (c1 ++ c2).
Proof. induction 1; intros H2; cbn [app]; [exact H2|constructor; auto|constructor; auto]. Qed.
Lemma interleave_seq {A} (a b : list A) : interleave a b (a ++ b).
Proof. induction a; cbn [app]; [apply interleave_right|constructor; assumption]. Qed.
Lemma interleave_in {A} (a b c : list A) x : interleave a b c -> In x c -> In x a \/ In x b.
Proof.
  induction 1 as [|y a b c H IH|y a b c H IH]; cbn [In]; [tauto| |]; (intros [->|Hx]; [tauto|]); apply IH in Hx; tauto.
Qed.
Lemma decode_in fs : Forall frame_small fs -> forall fuel g r out, frame_small g -> rfc_decode_all fuel (concat (map frame_wire fs) ++ frame_wire g ++ r) = Some out -> In (sent_frame g) out.
Proof.
  assert (forall fuel g r out, frame_small g -> rfc_decode_all fuel (frame_wire g ++ r) = Some out -> exists out' fuel', out = sent_frame g :: out' /\ rfc_decode_all fuel' r = Some out') as H.
  { intros fuel g r out Hg. pose proof (frame_wire_decode g r Hg) as D. destruct (frame_wire g ++ r) as [|x w]; [discriminate D|]. destruct fuel; [discriminate|]. cbn [rfc_decode_all].
    rewrite D. destruct (rfc_decode_all fuel r) as [out'|] eqn:E; [|discriminate]. intros [= <-]. eauto. }
  induction 1 as [|f fs Hf _ IH]; intros fuel g r out Hg; cbn [map concat app].
  - intros E. destruct (H _ _ _ _ Hg E) as (out' & _ & -> & _). now left.
  - rewrite <- app_assoc. intros E. destruct (H _ _ _ _ Hf E) as (out' & fuel' & -> & E'). right. eapply IH; eauto.
Qed.
Lemma utf8_first b s : is_utf8 (b :: s) -> b <> x8a /\ b <> x88.
Proof. intros H. apply valid_utf8_iff in H. split; intros ->; cbn in H; destruct s as [|? [|? [|? ?]]]; cbn in H; discriminate. Qed.

(** For all inputs: as soon as there is a non-empty update and an answer to give, the schedule decides. All schedules
    deliver the frames of both sides whole exactly when the reader has nothing to answer. *)
Theorem C80_exactly : forall m n s texts, machine_ok m ->
  Forall (fun t => is_utf8 t /\ (N.of_nat (length t) < 2 ^ 63)%N) texts -> Exists (fun t => t <> []) texts ->
  ((forall out, shared_output m n (ws_new s None) texts out ->
      exists fs, frames_in out = Some fs /\ interleave (answers (reads m n (ws_new s None))) (map text_frame texts) fs) <->
   answers (reads m n (ws_new s None)) = []).
Proof.
  intros m n s texts Hm Ht He. pose proof (replies_answers m n (ws_new s None) eq_refl) as Ea. split.
  - intros H. destruct (replies m n (ws_new s None)) as [|f rs] eqn:Er; [now rewrite <- Ea|]. exfalso.
    apply Exists_exists in He as (t & Hin & Hne). apply in_split in Hin as (t1 & t2 & ->). apply Forall_app in Ht as [Ht1 Ht2]. inversion Ht2 as [|? ? [Hu Hs] Ht2']; subst.
    destruct (replies_first m n (ws_new s None) f) as (b & rest & Eb & Hb); [rewrite Er; now left|].
    set (g := frame_of_message (Text t)).
    set (tail := concat (flat_map frame_calls rs) ++ t ++ concat (flat_map frame_calls (updates_sent t2))).
    destruct (H (concat (flat_map frame_calls (updates_sent t1)) ++ concat (frame_format g) ++ concat (frame_calls f) ++ tail)) as (fs & Hf & Hi).
    { exists (flat_map frame_calls (updates_sent t1) ++ frame_format g ++ frame_calls f ++ flat_map frame_calls rs ++ [t] ++ flat_map frame_calls (updates_sent t2)). split.
      - rewrite Er. unfold updates_sent. rewrite map_app, flat_map_app. cbn [map flat_map]. fold g. unfold frame_calls at 4. cbn [decoded g frame_of_message]. rewrite <- !app_assoc.
        apply (interleave_app [] _ _ _ _ _ (interleave_right _)). apply (interleave_app [] _ _ _ _ _ (interleave_right _)).
        rewrite (app_assoc (frame_calls f)). exact (interleave_seq (frame_calls f ++ flat_map frame_calls rs) _).
      - unfold tail. rewrite !concat_app. cbn [concat]. rewrite ?app_nil_r. now rewrite <- ?app_assoc. }
    (* the first |t| bytes after the header of t are taken for its payload *)
    rewrite Eb in Hf. set (body := (b :: rest) ++ tail) in Hf.
    assert (length t <= length body) as Hlen by (unfold body, tail; rewrite !app_length; lia).
    assert (concat (frame_format g) ++ body = frame_wire (frame_of_message (Text (firstn (length t) body))) ++ skipn (length t) body) as Ew.
    { rewrite <- frame_calls_wire. unfold frame_calls. rewrite concat_app. cbn [decoded frame_of_message concat]. rewrite app_nil_r, <- app_assoc, firstn_skipn. f_equal. f_equal.
      unfold frame_format, g. cbn [decoded frame_of_message op_code fin rsv1 rsv2 rsv3]. now rewrite firstn_length_le by exact Hlen. }
    rewrite Ew, calls_wire in Hf. unfold frames_in in Hf. apply decode_in in Hf.
    + apply (interleave_in _ _ _ _ Hi) in Hf as [Hf|Hf].
      * rewrite <- Ea in Hf. apply in_map_iff in Hf as (f' & E & Hf'). assert (rf_op (sent_frame f') = 1%N) as E1 by (rewrite E; reflexivity). clear -Hf' E1 Er. rewrite <- Er in Hf'. clear Er.
        revert Hf'. generalize (ws_new s None). induction n as [|n IH]; intros w; cbn [replies]; [intros []|].
        destruct (ws_next m w) as [[x|e| |] w']; try (intros []; fail); intros H; apply in_app_iff in H as [H|H]; eauto;
          destruct (ws_st w); try (destruct x as [p|p|d|d]); try destruct e; cbn [reply] in H; try destruct H as [<-|[]]; try destruct H; discriminate E1.
      * apply in_map_iff in Hf as (t' & E & Hin). unfold text_frame, sent_frame in E. cbn [frame_of_message decoded fin] in E. injection E as E.
        destruct t as [|t0 t]; [contradiction|]. unfold body in E. cbn [length firstn app] in E.
        assert (is_utf8 t') as Hu' by (apply in_app_iff in Hin as [Hin|[<-|Hin]]; [|exact Hu|]; [rewrite Forall_forall in Ht1; now apply Ht1|rewrite Forall_forall in Ht2'; now apply Ht2']).
        rewrite E in Hu'. apply utf8_first in Hu' as [H1 H2]. destruct Hb; contradiction.
    + unfold updates_sent. apply Forall_map. eapply Forall_impl; [|exact Ht1]. intros t' [_ H']. now apply (message_small (Text t')).
    + apply (message_small (Text _)). cbn [message_payload]. rewrite firstn_length_le by exact Hlen. exact Hs.
  - intros E0 out (cl & Hi & ->). rewrite E0. rewrite E0 in Ea. apply map_eq_nil in Ea. rewrite Ea in Hi. cbn [flat_map] in Hi. apply interleave_nil_l in Hi as ->.
    exists (map text_frame texts). split; [|apply interleave_right]. rewrite calls_wire, frames_in_wires.
    + unfold updates_sent. now rewrite map_map.
    + unfold updates_sent. apply Forall_map. eapply Forall_impl; [|exact Ht]. intros t [_ H']. now apply (message_small (Text t)).
Qed.
Print Assumptions C80_exactly.
(** Not vacuous: a client that sends a ping is answered, and "ab" is an update. *)
Example C80_example_exactly : answers (reads m32 1 (ws_new (pieces_stream [whole (client true 0 9 (bs "x"))]) None)) = [RFC true 0 10 None (bs "x")] /\
  is_utf8 (bs "ab") /\ Exists (fun t => t <> []) [bs "ab"].
Proof. split; [vm_compute; reflexivity|]. split; [apply valid_utf8_iff; reflexivity|]. constructor. discriminate. Qed.

(* ------------------------------------------------------------------ *)
(** ** C92: where a request's body ends *)
Lemma chunked_longer coded content : chunked coded content -> length content < length coded.
Proof.
  induction 1 as [|size data coded content _ _ _ IH]; [cbn; lia|]. rewrite !app_length. cbn [length CRLF]. lia.
Qed.
(** For every request that arrives whole, followed by any bytes: the body read is the one of RFC 7230 exactly when the
    request does not use Transfer-Encoding and has a Content-Length, or nothing follows. (A request with both fields
    is an error in RFC 7230.) *)
Theorem C92_exactly : forall U (ev : env U) s meth target fs bytes content rest r sz,
  sent ev s meth target fs bytes [] -> framed fs bytes content rest -> request_parse ev s = Ok (Some r) -> positive sz ->
  (N.of_nat (length content) < 2 ^ usize_bits ev)%N -> spelled_once (bs "content-length") fs ->
  ~ (has_field (bs "transfer-encoding") fs /\ has_field (bs "content-length") fs) ->
  (into_bytes sz (rq_body r) = Ok content <->
   ~ has_field (bs "transfer-encoding") fs /\ (has_field (bs "content-length") fs \/ rest = [])).
Proof.
  intros U ev s meth target fs bytes content rest r sz Hs Hf E Hsz Hmax Hone Hboth. split.
  - intros Hb.
    assert (~ has_field (bs "content-length") fs -> into_bytes sz (rq_body r) = Ok bytes) as Hall.
    { intros Hcl. apply (C29_no_content_length U ev s meth target fs bytes [] r Hs E); auto. apply Forall_forall. intros f Hin Hn. apply Hcl. apply Exists_exists. eauto. }
    destruct Hf as [f coded content rest Hin Hn _ Hch|ds content rest Hte Hcl _ _ _ _|rest Hte Hcl].
    + exfalso. assert (has_field (bs "transfer-encoding") fs) as Hte by (apply Exists_exists; eauto). rewrite Hall in Hb by (intros Hcl; auto). injection Hb as Hb.
      apply chunked_longer in Hch. apply (f_equal (@length byte)) in Hb. rewrite app_length in Hb. lia.
    + auto.
    + rewrite Hall in Hb by exact Hcl. injection Hb as ->. auto.
  - intros [Hte Hcase]. apply (C92_framing_partial U ev s meth target fs bytes [] content rest r); auto. destruct Hcase; auto.
Qed.
Print Assumptions C92_exactly.
Example C92_example_exactly : exists r, sent (demo_env (fun m => m)) [Data (request_head (bs "POST") (bs "/") chunked_fields ++ chunked_text)] (bs "POST") (bs "/") chunked_fields chunked_text [] /\
  framed chunked_fields chunked_text (bs "hello") [] /\
  request_parse (demo_env (fun m => m)) [Data (request_head (bs "POST") (bs "/") chunked_fields ++ chunked_text)] = Ok (Some r) /\
  spelled_once (bs "content-length") chunked_fields /\ ~ has_field (bs "content-length") chunked_fields.
Proof.
  assert (~ has_field (bs "content-length") chunked_fields) as Hno.
  { intros H. apply Exists_exists in H as (f & Hin & H). destruct Hin as [<-|[<-|[]]]; vm_compute in H; discriminate H. }
  eexists. split; [|split; [apply C92_framing_refuted|split; [vm_compute; reflexivity|split; [|exact Hno]]]].
  - split; [apply demo_ok|]. split; [exact httparse_reads_requests|]. split; [|apply one_segment; discriminate].
    split; [discriminate|]. split; [apply tchars_lit; vm_compute; reflexivity|]. split; [discriminate|]. split; [apply targets_lit; vm_compute; reflexivity|].
    split; [|cbn; lia]; apply Forall_map; eapply Forall_impl; [|apply fields_lit; vm_compute; reflexivity]; now intros kv [H _].
  - intros f g Hf _ Ef. exfalso. apply Hno. apply Exists_exists. eauto.
Qed.

(* ------------------------------------------------------------------ *)
(** ** C24: names in other spellings *)
Definition in_small_letters {U} (r : request U) : request U :=
  Request (map (fun kv => (to_lower (fst kv), snd kv)) (rq_headers r)) (rq_method r) (rq_body r) (rq_url r).
(** Every request for a WebSocket, with the same fields in small letters (as HTTP/2 front ends write them, RFC 7230 allows
    it), is refused. *)
Theorem C24_small_letters_refuted : forall U hash sz (r : request U), positive sz ->
  same_fields (rq_headers r) (rq_headers (in_small_letters r)) /\
  stream_upgrade hash sz (in_small_letters r) None = (text_400, Ok None).
Proof.
  intros U hash sz r Hsz.
  assert (forall b, byte_eqb (lower (lower b)) (lower b) = true) as Hlow by (intros []; reflexivity).
  assert (forall s, to_lower (to_lower s) = to_lower s) as Hto.
  { intros s. unfold to_lower. rewrite map_map. apply map_ext. intros b. now apply byte_eqb_eq. }
  split.
  - unfold in_small_letters. cbn [rq_headers]. induction (rq_headers r) as [|[k v] hs IH]; [constructor|]. constructor; [|exact IH]. cbn [fst snd]. split; [symmetry; apply Hto|reflexivity].
  - assert (get (bs "Upgrade") (rq_headers (in_small_letters r)) = None) as Hno.
    { unfold in_small_letters. cbn [rq_headers]. induction (rq_headers r) as [|[k v] hs IH]; [reflexivity|]. cbn [map fst snd get].
      destruct (str_eqb (bs "Upgrade") (to_lower k)) eqn:E; [|exact IH]. apply str_eqb_eq in E. assert (to_lower (bs "Upgrade") = bs "Upgrade") as E' by (rewrite E at 1; rewrite Hto; now rewrite <- E).
      vm_compute in E'. discriminate E'. }
    destruct (C23_one_response U hash sz (in_small_letters r) None Hsz) as [((u & c & Hu & _) & _)|(_ & H1 & H2 & _)]; [congruence|].
    destruct (stream_upgrade hash sz (in_small_letters r) None) as [out res]. cbn [fst snd] in *. rewrite H1, (H2 Logic.I). reflexivity.
Qed.
Print Assumptions C24_small_letters_refuted.
Example C24_example_small : fst (stream_upgrade sha1 sz1 (upgrade_request upgrade_headers) None) = text_101 (bs "s3pPLMBiTxaQ9kYGzzhZRbK+xOo=").
Proof. apply C24_case_refuted. Qed.
