(** C121: which handshakes are accepted. *)
From Verif Require Import Base HMap Io IoProofs WsModel HttpModel HttpSpec FramingSpec Httparse HttpLemmas HttpLemmas2 PropHttp Sha1 UpgradeModel UpgradeProofs PropUpgrade.
From Coq Require Import Lia.

(** ** Specification *)

(** [t] is an element of the comma-separated list [v], capitals apart (RFC 7230, 7). *)
Definition listed (t v : str) : Prop := exists before pre x post after,
  v = before ++ pre ++ x ++ post ++ after /\ to_lower x = t /\ Forall blank pre /\ Forall blank post /\
  (before = [] \/ exists b, before = b ++ bs ",") /\ (after = [] \/ exists a, after = bs "," ++ a).
(** A field of this (lower-case) name. *)
Definition named (name : str) (f : field) : Prop := to_lower (f_name f) = name.
(** RFC 6455, 4.2.1: what a client's opening handshake must contain. *)
Definition valid_handshake (meth : str) (fs : list field) : Prop :=
  meth = bs "GET" /\ Exists (named (bs "host")) fs /\
  Exists (fun f => named (bs "upgrade") f /\ listed (bs "websocket") (f_value f)) fs /\
  Exists (fun f => named (bs "connection") f /\ listed (bs "upgrade") (f_value f)) fs /\
  Exists (fun f => named (bs "sec-websocket-key") f /\ exists nonce, base64_decode (f_value f) = Some nonce /\ length nonce = 16) fs /\
  Exists (fun f => named (bs "sec-websocket-version") f /\ f_value f = bs "13") fs.
(** The server goes on with a WebSocket. *)
Definition accepted {U} (hash : str -> str) (sz : nat -> nat) (r : request U) : Prop :=
  exists out ws, stream_upgrade hash sz r None = (out, Ok (Some ws)).
(** How browsers write a handshake: the usual capitals, one protocol. *)
Definition usual (f : field) : Prop :=
  (named (bs "upgrade") f -> f_name f = bs "Upgrade" /\ to_lower (f_value f) = bs "websocket") /\
  (named (bs "connection") f -> f_name f = bs "Connection" /\ listed (bs "upgrade") (f_value f)) /\
  (named (bs "sec-websocket-key") f -> f_name f = bs "Sec-WebSocket-Key").

(** ** Proofs *)
Lemma in_last_field k fs : (exists f, In f fs /\ f_name f = k) -> exists f, In f fs /\ last_field k (f_value f) fs.
Proof.
  induction fs as [|g fs IH]; intros (f & Hf & Hk); [destruct Hf|].
  destruct (in_dec (list_eq_dec Byte.byte_eq_dec) k (map f_name fs)) as [Hi|Hi].
  - apply in_map_iff in Hi as (x & Hx & Hin). destruct IH as (y & Hy & fs1 & z & fs2 & -> & Hz & Hv & Hn); [eauto|].
    exists y. split; [now right|]. exists (g :: fs1), z, fs2. auto.
  - destruct Hf as [->|Hf]; [|exfalso; apply Hi, in_map_iff; eauto].
    exists f. split; [now left|]. exists [], f, fs. split; [reflexivity|]. split; [exact Hk|]. split; [reflexivity|].
    apply Forall_forall. intros x Hx E. apply Hi, in_map_iff. eauto.
Qed.
Lemma listed_inside t v : listed t v -> exists a b, to_lower v = a ++ t ++ b.
Proof.
  intros (before & pre & x & post & after & -> & <- & _). exists (to_lower (before ++ pre)), (to_lower (post ++ after)).
  unfold to_lower. rewrite <- !map_app. now rewrite <- !app_assoc.
Qed.
Lemma accepted_headers {U} hash sz (r : request U) : positive sz ->
  (accepted hash sz r <-> asks_websocket (rq_headers r) /\ exists key, get (bs "Sec-WebSocket-Key") (rq_headers r) = Some key).
Proof.
  intros Hsz. unfold accepted. pose proof (C23_one_response U hash sz r None Hsz) as H.
  destruct (stream_upgrade hash sz r None) as [out x]. cbn [fst snd] in H. split.
  - intros (o & ws & [= -> ->]). destruct H as [(Ha & key & Hk & _)|(_ & _ & He & _)]; [eauto|]. discriminate (He I).
  - intros (Ha & key & Hk). destruct H as [(_ & key' & _ & _ & Ho & _)|([Hn|Hn] & _)]; [|contradiction|congruence].
    destruct (Ho I) as (ws & -> & _). eauto.
Qed.

(** ** C121 *)

(** Exactly which requests are accepted, from their bytes. *)
Theorem C121_exactly : forall U (ev : env U) hash sz s meth target fs rest tail r, positive sz ->
  sent ev s meth target fs rest tail -> request_parse ev s = Ok (Some r) ->
  (accepted hash sz r <->
   (exists u, last_field (bs "Upgrade") u fs /\ to_lower u = bs "websocket") /\
   (exists c a b, last_field (bs "Connection") c fs /\ to_lower c = a ++ bs "upgrade" ++ b) /\
   (exists key, last_field (bs "Sec-WebSocket-Key") key fs)).
Proof.
  intros U ev hash sz s meth target fs rest tail r Hsz Hs E. rewrite (accepted_headers hash sz r Hsz).
  pose proof (C27_headers_faithful U ev s meth target fs rest tail r Hs E) as H. split.
  - intros ((u & c & Hu & Lu & Hc & a & b & Lc) & key & Hk). repeat split.
    + exists u. split; [now apply H|exact Lu].
    + exists c, a, b. split; [now apply H|exact Lc].
    + exists key. now apply H.
  - intros ((u & Hu & Lu) & (c & a & b & Hc & Lc) & key & Hk). split.
    + exists u, c. split; [now apply H|]. split; [exact Lu|]. split; [now apply H|]. exists a, b. exact Lc.
    + exists key. now apply H.
Qed.
Print Assumptions C121_exactly.

(** A valid handshake written the usual way is accepted. *)
Theorem C121_usual_partial : forall U (ev : env U) hash sz s meth target fs rest tail r, positive sz ->
  sent ev s meth target fs rest tail -> request_parse ev s = Ok (Some r) ->
  valid_handshake meth fs -> Forall usual fs -> accepted hash sz r.
Proof.
  intros U ev hash sz s meth target fs rest tail r Hsz Hs E (_ & _ & Hu & Hc & Hk & _) Husual.
  apply (C121_exactly U ev hash sz s meth target fs rest tail r Hsz Hs E). rewrite Forall_forall in Husual.
  apply Exists_exists in Hu as (f & Hf & Nf & _). apply Exists_exists in Hc as (g & Hg & Ng & _). apply Exists_exists in Hk as (h & Hh & Nh & _).
  destruct (Husual f Hf) as (F & _). destruct (Husual g Hg) as (_ & G & _). destruct (Husual h Hh) as (_ & _ & K). specialize (F Nf). specialize (G Ng). specialize (K Nh).
  destruct (in_last_field (bs "Upgrade") fs) as (f' & Hf' & Lf); [exists f; now split|].
  destruct (in_last_field (bs "Connection") fs) as (g' & Hg' & Lg); [exists g; now split|].
  destruct (in_last_field (bs "Sec-WebSocket-Key") fs) as (h' & Hh' & Lh); [exists h; now split|].
  assert (forall k x, last_field k (f_value x) fs -> exists y, In y fs /\ f_name y = k /\ f_value y = f_value x) as Hl.
  { intros k x (fs1 & y & fs2 & -> & Hy & Hv & _). exists y. split; [apply in_app_iff; right; now left|auto]. }
  repeat split.
  - exists (f_value f'). split; [exact Lf|]. destruct (Hl _ _ Lf) as (y & Hy & Ny & <-). destruct (Husual y Hy) as (X & _). apply X. unfold named. rewrite Ny. reflexivity.
  - exists (f_value g'). destruct (Hl _ _ Lg) as (y & Hy & Ny & Ey). destruct (Husual y Hy) as (_ & X & _). destruct X as [_ X]; [unfold named; rewrite Ny; reflexivity|].
    apply listed_inside in X as (a & b & X). exists a, b. rewrite <- Ey at 2. split; [exact Lg|exact X].
  - eauto.
Qed.
Print Assumptions C121_usual_partial.

(** Nothing else counts: not the method, the target, the version, the origin, or what the key is. Two requests with the same last
    Upgrade and Connection fields, and both with a key, are both accepted or both refused. *)
Theorem C121_nothing_else_counts : forall U (ev : env U) hash sz s meth target fs rest tail r s' meth' target' fs' rest' tail' r', positive sz ->
  sent ev s meth target fs rest tail -> request_parse ev s = Ok (Some r) ->
  sent ev s' meth' target' fs' rest' tail' -> request_parse ev s' = Ok (Some r') ->
  (forall k v, k = bs "Upgrade" \/ k = bs "Connection" -> (last_field k v fs <-> last_field k v fs')) ->
  ((exists key, last_field (bs "Sec-WebSocket-Key") key fs) <-> (exists key, last_field (bs "Sec-WebSocket-Key") key fs')) ->
  (accepted hash sz r <-> accepted hash sz r').
Proof.
  intros U ev hash sz s meth target fs rest tail r s' meth' target' fs' rest' tail' r' Hsz Hs E Hs' E' H Hk.
  rewrite (C121_exactly U ev hash sz s meth target fs rest tail r Hsz Hs E), (C121_exactly U ev hash sz s' meth' target' fs' rest' tail' r' Hsz Hs' E'), Hk.
  pose proof (fun v => H (bs "Upgrade") v (or_introl eq_refl)) as Hu. pose proof (fun v => H (bs "Connection") v (or_intror eq_refl)) as Hc.
  split; intros ((u & Lu & Eu) & (c & a & b & Lc & Ec) & K); (split; [exists u; split; [now apply Hu|exact Eu]|split; [exists c, a, b; split; [now apply Hc|exact Ec]|exact K]]).
Qed.
Print Assumptions C121_nothing_else_counts.

(** So handshakes that RFC 6455 forbids are accepted: any method, any version or none, any key, any origin, and a Connection field
    that does not list "upgrade". *)
Definition odd_fields (version origin : str) : list (str * str) :=
  [(bs "Host", bs "h"); (bs "Upgrade", bs "websocket"); (bs "Connection", bs "no-upgrade"); (bs "Sec-WebSocket-Key", bs "x");
   (bs "Sec-WebSocket-Version", version); (bs "Origin", origin)].
Definition odd_handshake : str := request_head (bs "POST") (bs "/ws") (map plain_field (odd_fields (bs "7") (bs "http://evil.example"))).
Lemma listed_no_upgrade : ~ listed (bs "upgrade") (bs "no-upgrade").
Proof.
  intros (before & pre & x & post & after & E & Hx & Hpre & Hpost & Hb & Ha).
  assert (length x = 7) as L by (apply (f_equal (@length byte)) in Hx; unfold to_lower in Hx; rewrite map_length in Hx; exact Hx).
  assert (~ In x2c (bs "no-upgrade")) as NC by (intros H; repeat (destruct H as [H|H]; [discriminate|]); exact H).
  rewrite E in NC. destruct Hb as [->|(b & ->)]; [|apply NC; change (bs ",") with [x2c]; rewrite !in_app_iff; cbn; tauto].
  destruct Ha as [->|(a & ->)]; [|apply NC; change (bs ",") with [x2c]; rewrite !in_app_iff; cbn; tauto].
  rewrite app_nil_r in E. cbn [app] in E.
  destruct pre as [|p pre]; [|inversion Hpre as [|? ? B _]; subst; change (bs "no-upgrade") with (x6e :: bs "o-upgrade") in E; injection E as <- _; destruct B; discriminate].
  destruct post as [|q post] using rev_ind.
  - rewrite app_nil_r in E. cbn [app] in E. subst x. discriminate.
  - apply Forall_app in Hpost as [_ B]. inversion B as [|? ? B' _]; subst. cbn [app] in E. rewrite app_assoc in E.
    change (bs "no-upgrade") with (bs "no-upgrad" ++ [x65]) in E. apply app_inj_tail in E as [_ <-]. destruct B'; discriminate.
Qed.
Theorem C121_invalid_accepted_refuted :
  exists r, request_parse (demo_env (fun m => m)) [Data odd_handshake] = Ok (Some r) /\ accepted sha1 sz1 r /\
  let fs := map plain_field (odd_fields (bs "7") (bs "http://evil.example")) in
  bs "POST" <> bs "GET" /\ ~ Exists (fun f => named (bs "connection") f /\ listed (bs "upgrade") (f_value f)) fs /\
  ~ Exists (fun f => named (bs "sec-websocket-key") f /\ exists nonce, base64_decode (f_value f) = Some nonce /\ length nonce = 16) fs /\
  ~ Exists (fun f => named (bs "sec-websocket-version") f /\ f_value f = bs "13") fs.
Proof.
  eexists. split; [vm_compute; reflexivity|]. split; [do 2 eexists; vm_compute; reflexivity|]. intros fs. split; [discriminate|].
  repeat split; intros H; repeat (apply Exists_cons in H as [H|H]; [|]); try (now apply Exists_nil in H); destruct H as [N H]; try discriminate N.
  - now apply listed_no_upgrade.
  - destruct H as (nonce & E & _). vm_compute in E. discriminate.
  - discriminate H.
Qed.
Print Assumptions C121_invalid_accepted_refuted.

(** And valid ones are refused: two protocols offered, the second Connection field, or small letters (C24). *)
Definition two_protocols : list (str * str) :=
  [(bs "Host", bs "h"); (bs "Upgrade", bs "websocket, h2c"); (bs "Connection", bs "Upgrade"); (bs "Sec-WebSocket-Key", bs "dGhlIHNhbXBsZSBub25jZQ=="); (bs "Sec-WebSocket-Version", bs "13")].
Definition two_connections : list (str * str) :=
  [(bs "Host", bs "h"); (bs "Upgrade", bs "websocket"); (bs "Connection", bs "Upgrade"); (bs "Connection", bs "keep-alive"); (bs "Sec-WebSocket-Key", bs "dGhlIHNhbXBsZSBub25jZQ=="); (bs "Sec-WebSocket-Version", bs "13")].
Theorem C121_valid_refused_refuted : forall l, l = two_protocols \/ l = two_connections ->
  valid_handshake (bs "GET") (map plain_field l) /\
  exists r, request_parse (demo_env (fun m => m)) [Data (request_head (bs "GET") (bs "/ws") (map plain_field l))] = Ok (Some r) /\ ~ accepted sha1 sz1 r.
Proof.
  assert (listed (bs "websocket") (bs "websocket, h2c")) as L1.
  { exists [], [], (bs "websocket"), [], (bs ", h2c"). repeat split; auto. right. exists (bs " h2c"). reflexivity. }
  assert (forall x, listed (to_lower x) x) as L2 by (intros x; exists [], [], x, [], []; rewrite !app_nil_r; repeat split; auto).
  pose proof (L2 (bs "websocket")) as L3. pose proof (L2 (bs "Upgrade")) as L4. change (to_lower (bs "websocket")) with (bs "websocket") in L3. change (to_lower (bs "Upgrade")) with (bs "upgrade") in L4.
  assert (exists nonce, base64_decode (bs "dGhlIHNhbXBsZSBub25jZQ==") = Some nonce /\ length nonce = 16) as K by (eexists; split; [vm_compute; reflexivity|reflexivity]).
  intros l [->| ->]; (split; [split; [reflexivity|]|]).
  - split; [left; reflexivity|]. split; [right; left; split; [reflexivity|exact L1]|]. split; [do 2 right; left; split; [reflexivity|exact L4]|]. split; [do 3 right; left; split; [reflexivity|exact K]|do 4 right; left; split; reflexivity].
  - eexists. split; [vm_compute; reflexivity|]. intros (out & ws & E). vm_compute in E. discriminate.
  - split; [left; reflexivity|]. split; [right; left; split; [reflexivity|exact L3]|]. split; [do 2 right; left; split; [reflexivity|exact L4]|]. split; [do 4 right; left; split; [reflexivity|exact K]|do 5 right; left; split; reflexivity].
  - eexists. split; [vm_compute; reflexivity|]. intros (out & ws & E). vm_compute in E. discriminate.
Qed.
Print Assumptions C121_valid_refused_refuted.

(** What Firefox sends meets the hypotheses. *)
Definition browser_fields : list (str * str) :=
  [(bs "Host", bs "h"); (bs "Origin", bs "http://h"); (bs "Upgrade", bs "websocket"); (bs "Connection", bs "keep-alive, Upgrade");
   (bs "Sec-WebSocket-Key", bs "dGhlIHNhbXBsZSBub25jZQ=="); (bs "Sec-WebSocket-Version", bs "13")].
Example C121_example : let fs := map plain_field browser_fields in
  valid_handshake (bs "GET") fs /\ Forall usual fs /\
  exists r, request_parse (demo_env (fun m => m)) [Data (request_head (bs "GET") (bs "/ws") fs)] = Ok (Some r) /\ accepted sha1 sz1 r.
Proof.
  intros fs.
  assert (listed (bs "upgrade") (bs "keep-alive, Upgrade")) as L1.
  { exists (bs "keep-alive,"), (bs " "), (bs "Upgrade"), [], []. repeat split; auto; [repeat constructor|]. right. exists (bs "keep-alive"). reflexivity. }
  assert (listed (bs "websocket") (bs "websocket")) as L2 by (exists [], [], (bs "websocket"), [], []; repeat split; auto).
  split; [|split].
  - split; [reflexivity|]. split; [left; reflexivity|]. split; [do 2 right; left; split; [reflexivity|exact L2]|]. split; [do 3 right; left; split; [reflexivity|exact L1]|].
    split; [do 4 right; left; split; [reflexivity|eexists; split; [vm_compute; reflexivity|reflexivity]]|do 5 right; left; split; reflexivity].
  - unfold fs, browser_fields. cbn [map]. repeat (apply Forall_cons; [split; [|split]; intros N; try discriminate N; try (split; [reflexivity|]); try exact L1; reflexivity|]). apply Forall_nil.
  - eexists. split; [vm_compute; reflexivity|]. do 2 eexists. vm_compute. reflexivity.
Qed.
