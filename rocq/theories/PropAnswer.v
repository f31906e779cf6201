(** C123: the client gets the response that was sent. *)
From Verif Require Import Base HMap Num Io IoProofs HttpModel HttpSpec Httparse HttpProofs2 HttpProofs3 HttpProofs4 HttpLemmas HttpLemmas2
  FramingSpec AnswerSpec UpgradeModel UpgradeProofs ServeModel PropHttp PropServe.
From Coq Require Import Lia Permutation Sorted.

(** ** The recipient's reading is determined by the bytes *)
Lemma same_head code reason fs rest code' reason' fs' rest' : response_head_ok code reason fs -> response_head_ok code' reason' fs' ->
  response_head code reason fs ++ rest = response_head code' reason' fs' ++ rest' ->
  code' = code /\ reason' = reason /\ map pair_of fs' = map pair_of fs /\ rest' = rest.
Proof.
  intros H H' E. assert (response_head code reason fs = response_head code' reason' fs') as Eh.
  { pose proof (response_head_complete _ _ _ H) as [[p Ep] U]. pose proof (response_head_complete _ _ _ H') as [[p' Ep'] U'].
    destruct (app_eq_app _ _ _ _ E) as (l & [[E1 E2]|[E1 E2]]).
    - assert (l = []) as ->; [|now rewrite app_nil_r in E1]. apply (U p' l). rewrite E1, Ep', <- !app_assoc. reflexivity.
    - assert (l = []) as ->; [|now rewrite app_nil_r in E1]. apply (U' p l). rewrite E1, Ep, <- !app_assoc. reflexivity. }
  rewrite Eh in E. apply app_inv_head in E. pose proof (httparse_reads_responses _ _ _ H) as R. rewrite Eh, (httparse_reads_responses _ _ _ H') in R.
  injection R as -> -> Em. repeat split; auto.
Qed.
Lemma head_not_missing code reason fs rest : response_head_ok code reason fs -> ~ no_head (response_head code reason fs ++ rest).
Proof.
  intros H N. pose proof (response_head_complete _ _ _ H) as [[p Ep] _]. apply (N p rest). now rewrite Ep, <- !app_assoc.
Qed.
(** What fields say depends on names and values only. *)
Lemma has_pairs name fs fs' : map pair_of fs' = map pair_of fs -> has_field name fs -> has_field name fs'.
Proof.
  unfold has_field. rewrite !Exists_exists. intros E (f & Hf & Hn). assert (In (pair_of f) (map pair_of fs')) as Hi by (rewrite E; now apply in_map).
  apply in_map_iff in Hi as (f' & Ef & Hi). exists f'. split; [exact Hi|]. injection Ef as -> _. exact Hn.
Qed.
Lemma all_pairs ds fs fs' : map pair_of fs' = map pair_of fs ->
  Forall (fun f => to_lower (f_name f) = bs "content-length" -> f_value f = ds) fs -> Forall (fun f => to_lower (f_name f) = bs "content-length" -> f_value f = ds) fs'.
Proof.
  rewrite !Forall_forall. intros E H f' Hf. assert (In (pair_of f') (map pair_of fs)) as Hi by (rewrite <- E; now apply in_map).
  apply in_map_iff in Hi as (f & Ef & Hi). injection Ef as En Ev. rewrite <- En, <- Ev. now apply H.
Qed.
Lemma says_same fs ds ds' n n' : has_field (bs "content-length") fs ->
  Forall (fun f => to_lower (f_name f) = bs "content-length" -> f_value f = ds) fs -> Forall (fun f => to_lower (f_name f) = bs "content-length" -> f_value f = ds') fs ->
  says ds n -> says ds' n' -> n = n'.
Proof.
  unfold has_field. rewrite Exists_exists. intros (f & Hf & Hn) H H' S S'. rewrite Forall_forall in H, H'. pose proof (H f Hf Hn) as E. rewrite (H' f Hf Hn) in E. subst ds'.
  destruct S as (_ & _ & S). destruct S' as (_ & _ & S'). lia.
Qed.

(** [verdict to_head code reason fs rest a]: behind this head, without Transfer-Encoding, comes [rest]. *)
Definition verdict (to_head : bool) (code : N) (reason : str) (fs : list field) (rest : str) (a : answer) : Prop :=
  (bodiless to_head code /\ a = Whole code reason (map pair_of fs) [] rest) \/
  (~ bodiless to_head code /\
   ((~ has_field (bs "content-length") fs /\ a = Whole code reason (map pair_of fs) rest []) \/
    (has_field (bs "content-length") fs /\
     ((exists ds n, Forall (fun f => to_lower (f_name f) = bs "content-length" -> f_value f = ds) fs /\ says ds n /\
        ((n <= length rest /\ a = Whole code reason (map pair_of fs) (firstn n rest) (skipn n rest)) \/ (length rest < n /\ a = CutOff))) \/
      ((forall ds n, Forall (fun f => to_lower (f_name f) = bs "content-length" -> f_value f = ds) fs -> ~ says ds n) /\ a = Garbled))))).
Lemma received_verdict to_head code reason fs rest a : response_head_ok code reason fs -> ~ has_field (bs "transfer-encoding") fs ->
  received to_head (response_head code reason fs ++ rest) a <-> verdict to_head code reason fs rest a.
Proof.
  intros Hok Ht. split.
  - intros R. remember (response_head code reason fs ++ rest) as bytes eqn:E.
    destruct R as [bytes N|c r f' rest' H B|c r f' f coded content rest' H B Hi Hn Hv Hc|c r f' f rest' H B Hi Hn Hv Hc
      |c r f' ds content rest' H B T L F S|c r f' ds n rest' H B T L F S Hl|c r f' rest' H B T L F|c r f' rest' H B T L].
    1: { exfalso. subst. now apply (head_not_missing _ _ _ _ Hok) in N. }
    all: destruct (same_head _ _ _ _ _ _ _ _ Hok H (eq_sym E)) as (-> & -> & Em & <-).
    + left. split; [exact B|]. now rewrite Em.
    + exfalso. apply Ht, (has_pairs _ f' fs (eq_sym Em)). apply Exists_exists. eauto.
    + exfalso. apply Ht, (has_pairs _ f' fs (eq_sym Em)). apply Exists_exists. eauto.
    + right. split; [exact B|]. right. split; [exact (has_pairs _ f' fs (eq_sym Em) L)|]. left. exists ds, (length content). split; [exact (all_pairs _ f' fs (eq_sym Em) F)|]. split; [exact S|].
      left. rewrite app_length. split; [lia|]. rewrite Em. rewrite firstn_app, firstn_all, Nat.sub_diag, skipn_app, skipn_all, Nat.sub_diag. cbn [firstn skipn app]. now rewrite app_nil_r.
    + right. split; [exact B|]. right. split; [exact (has_pairs _ f' fs (eq_sym Em) L)|]. left. exists ds, n. split; [exact (all_pairs _ f' fs (eq_sym Em) F)|]. split; [exact S|]. right. now split.
    + right. split; [exact B|]. right. split; [exact (has_pairs _ f' fs (eq_sym Em) L)|]. right. split; [|reflexivity]. intros ds n F'. apply F. exact (all_pairs _ fs f' Em F').
    + right. split; [exact B|]. left. split; [|now rewrite Em]. intros L'. apply L. exact (has_pairs _ fs f' Em L').
  - intros [[B ->]|[B [[L ->]|[L [(ds & n & F & S & [[Hl ->]|[Hl ->]])|[F ->]]]]]].
    + now apply without_body.
    + now apply until_closed.
    + rewrite <- (firstn_skipn n rest) at 1. eapply by_announced_length; eauto. now rewrite firstn_length_le.
    + eapply too_short; eauto.
    + now apply no_length.
Qed.
Lemma has_field_dec name fs : has_field name fs \/ ~ has_field name fs.
Proof.
  unfold has_field. destruct (Exists_dec (fun f => to_lower (f_name f) = name) fs) as [H|H]; auto.
  intros f. destruct (str_eqb (to_lower (f_name f)) name) eqn:E; [left; now apply str_eqb_eq|right; intros H; apply str_eqb_eq in H; congruence].
Qed.
Lemma bodiless_dec to_head code : bodiless to_head code \/ ~ bodiless to_head code.
Proof.
  unfold bodiless. destruct to_head; [auto|]. destruct (N.eq_dec code 204); [auto|]. destruct (N.eq_dec code 304); [auto|].
  destruct (N.le_gt_cases 100 code); [|right; intros [[=]|[|[]]]; lia]. destruct (N.le_gt_cases code 199); [auto|]. right. intros [[=]|[|[]]]; lia.
Qed.
Lemma digit_dec (b : byte) : {is_digit b} + {~ is_digit b}.
Proof.
  unfold is_digit. destruct (N.leb 48 (b2n b)) eqn:E1; [destruct (N.leb (b2n b) 57) eqn:E2|].
  - apply N.leb_le in E1, E2. left. now split.
  - apply N.leb_gt in E2. right. lia.
  - apply N.leb_gt in E1. right. lia.
Qed.
Lemma verdict_total to_head code reason fs rest : exists a, verdict to_head code reason fs rest a.
Proof.
  destruct (bodiless_dec to_head code) as [B|B]; [eexists; left; eauto|].
  destruct (has_field_dec (bs "content-length") fs) as [L|L]; [|eexists; right; split; [exact B|left; eauto]].
  pose proof L as L0. apply Exists_exists in L0 as (f & Hf & Hn).
  assert ({Forall (fun g => to_lower (f_name g) = bs "content-length" -> f_value g = f_value f) fs} + {~ Forall (fun g => to_lower (f_name g) = bs "content-length" -> f_value g = f_value f) fs}) as D.
  { apply Forall_dec. intros g. destruct (str_eqb (f_value g) (f_value f)) eqn:E; [left; intros _; now apply str_eqb_eq|].
    destruct (str_eqb (to_lower (f_name g)) (bs "content-length")) eqn:E2; [right|left; intros H; apply str_eqb_eq in H; congruence].
    intros H. apply str_eqb_eq in E2. specialize (H E2). apply str_eqb_eq in H. congruence. }
  destruct D as [F|F].
  - destruct (Forall_dec is_digit digit_dec (f_value f)) as [Hd|Hd].
    + destruct (f_value f) as [|d ds] eqn:Ev.
      * exists Garbled. right. split; [exact B|]. right. split; [exact L|]. right. split; [|reflexivity]. intros ds n F' (S & _). rewrite Forall_forall in F'. rewrite <- (F' f Hf Hn), Ev in S. congruence.
      * set (n := N.to_nat (digits_value (d :: ds))).
        assert (says (d :: ds) n) as S by (repeat split; [discriminate|exact Hd|unfold n; now rewrite N2Nat.id]).
        destruct (Nat.le_gt_cases n (length rest)); eexists; right; (split; [exact B|]); right; (split; [exact L|]); left; exists (d :: ds), n; (split; [exact F|]); (split; [exact S|]); [left|right]; split; eauto.
    + exists Garbled. right. split; [exact B|]. right. split; [exact L|]. right. split; [|reflexivity]. intros ds n F' (_ & S & _). rewrite Forall_forall in F'. rewrite <- (F' f Hf Hn) in S. contradiction.
  - exists Garbled. right. split; [exact B|]. right. split; [exact L|]. right. split; [|reflexivity]. intros ds n F' _. apply F. rewrite Forall_forall in *. intros g Hg Hgn. rewrite (F' g Hg Hgn). symmetry. exact (F' f Hf Hn).
Qed.
Lemma verdict_unique to_head code reason fs rest a a' : verdict to_head code reason fs rest a -> verdict to_head code reason fs rest a' -> a = a'.
Proof.
  intros [[B ->]|[B [[L ->]|[L [(ds & n & F & S & C)|[F ->]]]]]] [[B' ->]|[B' [[L' ->]|[L' [(ds' & n' & F' & S' & C')|[F' ->]]]]]]; try contradiction; try reflexivity.
  - rewrite <- (says_same _ _ _ _ _ L F F' S S') in C'. destruct C as [[Hl ->]|[Hl ->]], C' as [[Hl' ->]|[Hl' ->]]; try lia; reflexivity.
  - exfalso. exact (F' _ _ F S).
  - exfalso. exact (F _ _ F' S').
Qed.

(** ** C123 *)
(** A response that can be written and read as HTTP, and codes nothing itself. *)
Definition sendable (r : response) : Prop :=
  (100 <= rs_status r <= 999)%N /\ Forall reason_char (rs_reason r) /\ writable_headers (rs_headers r) /\
  forall k v, In (k, v) (rs_headers r) -> to_lower k <> bs "transfer-encoding".
(** Every length the fields announce is [n]. *)
Definition announced_right (hs : list (str * str)) (n : nat) : Prop :=
  exists ds, says ds n /\ forall k v, In (k, v) hs -> to_lower k = bs "content-length" -> v = ds.
Definition announces (hs : list (str * str)) : Prop := exists k v, In (k, v) hs /\ to_lower k = bs "content-length".

Lemma sent_head sz r content : sendable r -> into_bytes sz (rs_body r) = Ok content ->
  exists hs, Permutation hs (rs_headers r) /\ response_head_ok (rs_status r) (rs_reason r) (map plain_field hs) /\
    map pair_of (map plain_field hs) = hs /\ ~ has_field (bs "transfer-encoding") (map plain_field hs) /\
    encode sz r None = (response_head (rs_status r) (rs_reason r) (map plain_field hs) ++ content, Ok tt).
Proof.
  intros (H1 & H2 & (W & L & F) & T) Hb. destruct (encoder_exact sz r content W Hb) as (hs & P & _ & E). exists hs. split; [exact P|]. split; [|split; [|split]].
  - split; [exact H1|]. split; [exact H2|]. split.
    + rewrite Forall_map, Forall_forall in *. intros kv Hi. apply F. eapply Permutation_in; eauto.
    + rewrite map_length, (Permutation_length P). exact L.
  - rewrite map_map. clear. induction hs as [|[k v] hs IH]; cbn; [reflexivity|]. now rewrite IH.
  - unfold has_field. rewrite Exists_exists. intros (f & Hf & Hn). apply in_map_iff in Hf as ([k v] & <- & Hi). eapply T; [eapply Permutation_in; [exact P|exact Hi]|exact Hn].
  - rewrite E. unfold response_head. rewrite (dec_code _ H1), <- header_lines_fields, <- !app_assoc. reflexivity.
Qed.
Lemma announces_field hs hs' : Permutation hs hs' -> has_field (bs "content-length") (map plain_field hs) <-> announces hs'.
Proof.
  intros P. unfold has_field, announces. rewrite Exists_exists. split.
  - intros (f & Hf & Hn). apply in_map_iff in Hf as ([k v] & <- & Hi). exists k, v. split; [eapply Permutation_in; eauto|exact Hn].
  - intros (k & v & Hi & Hn). exists (plain_field (k, v)). split; [|exact Hn]. apply in_map. eapply Permutation_in; [symmetry; exact P|exact Hi].
Qed.
Lemma values_field hs hs' ds : Permutation hs hs' -> Forall (fun f => to_lower (f_name f) = bs "content-length" -> f_value f = ds) (map plain_field hs) <->
  (forall k v, In (k, v) hs' -> to_lower k = bs "content-length" -> v = ds).
Proof.
  intros P. rewrite Forall_forall. split.
  - intros H k v Hi Hn. apply (H (plain_field (k, v))); [|exact Hn]. apply in_map. eapply Permutation_in; [symmetry; exact P|exact Hi].
  - intros H f Hf Hn. apply in_map_iff in Hf as ([k v] & <- & Hi). eapply H; [eapply Permutation_in; [exact P|exact Hi]|exact Hn].
Qed.
Lemma dec_says n : says (dec (N.of_nat n)) n.
Proof.
  split; [|split; [apply dec_digits|apply dec_value]]. intros E. now apply dec_nonempty in E.
Qed.

(** The recipient of a response takes it for exactly what was sent, status, reason, fields and body, with nothing left over,
    if and only if a response that must not have a body has none, and an announced length is the body's. *)
Theorem C123_exactly : forall sz r content to_head, sendable r -> into_bytes sz (rs_body r) = Ok content ->
  exists wire a, encode sz r None = (wire, Ok tt) /\ received to_head wire a /\ (forall a', received to_head wire a' -> a' = a) /\
    ((exists fs, Permutation fs (rs_headers r) /\ a = Whole (rs_status r) (rs_reason r) fs content []) <->
     (bodiless to_head (rs_status r) /\ content = []) \/
     (~ bodiless to_head (rs_status r) /\ announced_right (rs_headers r) (length content))).
Proof.
  intros sz r content to_head Hs Hb. destruct (sent_head sz r content Hs Hb) as (hs & P & Hok & Hp & Ht & E).
  destruct (verdict_total to_head (rs_status r) (rs_reason r) (map plain_field hs) content) as [a V].
  eexists _, a. split; [exact E|]. split; [now apply (received_verdict to_head _ _ _ content a Hok Ht)|]. split.
  { intros a' R. apply (received_verdict to_head _ _ _ content a' Hok Ht) in R. exact (verdict_unique _ _ _ _ _ _ _ R V). }
  destruct V as [[B ->]|[B [[L ->]|[L [(ds & n & F & S & [[Hl ->]|[Hl ->]])|[F ->]]]]]].
  - rewrite Hp. split; [intros (fs & _ & [= _ <-]); now left|]. intros [[_ ->]|[B' _]]; [|contradiction]. exists hs. now split.
  - rewrite Hp. split; [|intros _; exists hs; now split]. intros _. right. split; [exact B|]. exists (dec (N.of_nat (length content))). split; [apply dec_says|].
    intros k v Hi Hn. exfalso. apply L, (announces_field _ _ P). now exists k, v.
  - rewrite Hp. split.
    + intros (fs & _ & [= _ Ec _]). right. split; [exact B|]. exists ds. split; [|now apply (values_field _ _ _ P)].
      apply (f_equal (@length _)) in Ec. rewrite firstn_length_le in Ec by exact Hl. congruence.
    + intros [[B' _]|[_ (ds' & S' & F')]]; [contradiction|]. apply (values_field _ _ _ P) in F'. assert (n = length content) as -> by exact (says_same _ _ _ _ _ L F F' S S').
      exists hs. split; [exact P|]. now rewrite firstn_all, skipn_all.
  - split; [intros (fs & _ & [=])|]. intros [[B' _]|[_ (ds' & S' & F')]]; [contradiction|]. apply (values_field _ _ _ P) in F'. pose proof (says_same _ _ _ _ _ L F F' S S'). lia.
  - split; [intros (fs & _ & [=])|]. intros [[B' _]|[_ (ds' & S' & F')]]; [contradiction|]. apply (values_field _ _ _ P) in F'. exfalso. exact (F _ _ F' S').
Qed.
Print Assumptions C123_exactly.

Lemma cut_head head content n : complete_head head -> n < length head -> no_head (firstn n (head ++ content)).
Proof.
  intros [_ U] Hn p q E. rewrite firstn_app in E. replace (n - length head) with 0 in E by lia. rewrite firstn_O, app_nil_r in E.
  assert (q ++ skipn n head = []) as Hq by (apply (U p); rewrite <- (firstn_skipn n head) at 1; rewrite E, <- !app_assoc; reflexivity).
  apply app_eq_nil in Hq as [_ Hq]. apply (f_equal (@length _)) in Hq. rewrite skipn_length in Hq. cbn in Hq. lia.
Qed.
Lemma received_cut to_head bytes a : no_head bytes -> received to_head bytes a -> a = CutOff.
Proof. intros N R. destruct R; try reflexivity; exfalso; now apply (head_not_missing _ _ _ _ H) in N. Qed.
(** And of a response that is otherwise as it should be but breaks off, the recipient notices it if and only if that happens inside
    the head, or a length was announced; otherwise it takes what came of the body for all of it. *)
Theorem C123_cut_off_exactly : forall sz r content to_head, sendable r -> into_bytes sz (rs_body r) = Ok content ->
  (bodiless to_head (rs_status r) -> content = []) -> announced_right (rs_headers r) (length content) ->
  exists head, encode sz r None = (head ++ content, Ok tt) /\ complete_head head /\
    forall n, n < length (head ++ content) ->
    encode sz r (Some n) = (firstn n (head ++ content), Err EOther) /\
    exists a, received to_head (firstn n (head ++ content)) a /\ (forall a', received to_head (firstn n (head ++ content)) a' -> a' = a) /\
      (a = CutOff <-> n < length head \/ announces (rs_headers r)) /\
      (length head <= n -> ~ announces (rs_headers r) -> exists fs, Permutation fs (rs_headers r) /\
         a = Whole (rs_status r) (rs_reason r) fs (firstn (n - length head) content) []).
Proof.
  intros sz r content to_head Hs Hb Hbl Ha. destruct (sent_head sz r content Hs Hb) as (hs & P & Hok & Hp & Ht & E).
  set (head := response_head _ _ _) in *. exists head. split; [exact E|]. pose proof (response_head_complete _ _ _ Hok) as Hc. fold head in Hc. split; [exact Hc|].
  intros n Hn. split. { rewrite (encode_failing _ _ n _ _ E). destruct (Nat.leb_spec (length (head ++ content)) n); [lia|reflexivity]. }
  destruct (Nat.lt_ge_cases n (length head)) as [Hl|Hl].
  { pose proof (cut_head head content n Hc Hl) as Nh. exists CutOff. split; [now constructor|]. split; [intros a'; now apply received_cut|]. split; [|lia]. split; auto. }
  assert (firstn n (head ++ content) = head ++ firstn (n - length head) content) as -> by (rewrite firstn_app, firstn_all2 by exact Hl; reflexivity).
  rewrite app_length in Hn. set (rest := firstn (n - length head) content). assert (length rest < length content) as Hr by (unfold rest; rewrite firstn_length; lia).
  destruct (verdict_total to_head (rs_status r) (rs_reason r) (map plain_field hs) rest) as [a V]. exists a.
  split; [now apply (received_verdict to_head _ _ _ rest a Hok Ht)|]. split.
  { intros a' R. apply (received_verdict to_head _ _ _ rest a' Hok Ht) in R. exact (verdict_unique _ _ _ _ _ _ _ R V). }
  rewrite <- (announces_field _ _ P). destruct Ha as (ds' & S' & F'). apply (values_field _ _ _ P) in F'.
  destruct V as [[B ->]|[B [[L ->]|[L [(ds & m & F & S & [[Hm ->]|[Hm ->]])|[F ->]]]]]].
  - apply Hbl in B. subst content. cbn [length] in Hr. lia.
  - split; [split; [discriminate|]; intros [H|H]; [lia|contradiction]|]. intros _ _. rewrite Hp. exists hs. now split.
  - rewrite (says_same _ _ _ _ _ L F F' S S') in Hm. lia.
  - split; [split; auto|]. intros _ H. contradiction.
  - exfalso. exact (F _ _ F' S').
Qed.
Print Assumptions C123_cut_off_exactly.

(** ** The framework's own responses *)
Lemma reason_lit s : forallb (fun b => N.eqb (b2n b) 9 || (N.leb 32 (b2n b) && N.leb (b2n b) 126))%bool s = true -> Forall reason_char s.
Proof.
  rewrite forallb_forall, Forall_forall. intros H b Hb. specialize (H b Hb). apply Bool.orb_true_iff in H as [H|H]; [left; now apply N.eqb_eq|].
  apply Bool.andb_true_iff in H as [H1 H2]. apply N.leb_le in H1, H2. right. now split.
Qed.
Definition own_response (file : str) (r : response) (content : str) : Prop :=
  (r = liveview_index /\ content = index_html) \/ (r = liveview_js file /\ content = file) \/
  (r = err_400 /\ content = bs "<h1>400: bad request</h1>") \/ (r = err_404 /\ content = bs "<h1>404: Not found</h1>").
Lemma own_sendable file r content sz : positive sz -> own_response file r content ->
  sendable r /\ into_bytes sz (rs_body r) = Ok content /\ ~ bodiless false (rs_status r) /\ ~ announces (rs_headers r).
Proof.
  intros Hsz H. assert (exists ct, rs_headers r = [(bs "Content-Type", ct)] /\ In ct [bs "text/html"; bs "application/javascript"; bs "text/html;charset=utf-8"]) as (ct & Eh & Hct).
  { destruct H as [[-> _]|[[-> _]|[[-> _]|[-> _]]]]; eexists; (split; [reflexivity|]); cbn [In]; auto. }
  split; [|split; [|split]].
  - split; [destruct H as [[-> _]|[[-> _]|[[-> _]|[-> _]]]]; cbn; lia|]. split.
    { destruct H as [[-> _]|[[-> _]|[[-> _]|[-> _]]]]; apply reason_lit; reflexivity. }
    split.
    + unfold writable_headers. rewrite Eh. split; [constructor; [easy|constructor]|]. split; [cbn; lia|]. constructor; [|constructor].
      destruct Hct as [<-|[<-|[<-|[]]]]; apply field_lit; vm_compute; reflexivity.
    + intros k v. rewrite Eh. intros [[= <- _]|[]]. vm_compute. discriminate.
  - destruct H as [[-> ->]|[[-> ->]|[[-> ->]|[-> ->]]]]; 
      match goal with |- _ = Ok ?c => change (into_bytes sz (body_from_string c) = Ok c); destruct (from_string_drain sz c Hsz) as (ds & b' & E & Ec); unfold into_bytes; now rewrite E, Ec end.
  - destruct H as [[-> _]|[[-> _]|[[-> _]|[-> _]]]]; cbn [rs_status]; intros [[=]|[|[]]]; try (cbn in *; lia); discriminate.
  - rewrite Eh. intros (k & v & [[= <- _]|[]] & Hk). vm_compute in Hk. discriminate.
Qed.
(** Asked for with anything but HEAD, and delivered completely, the framework's pages and errors arrive as they are. *)
Theorem C123_own_responses_partial : forall sz file r content, positive sz -> own_response file r content ->
  exists wire, encode sz r None = (wire, Ok tt) /\
    forall a, received false wire a <-> a = Whole (rs_status r) (rs_reason r) (rs_headers r) content [].
Proof.
  intros sz file r content Hsz Ho. destruct (own_sendable file r content sz Hsz Ho) as (Hs & Hb & B & A).
  destruct (C123_exactly sz r content false Hs Hb) as (wire & a & E & R & U & [_ W]).
  destruct W as (fs & P & ->). { right. split; [exact B|]. exists (dec (N.of_nat (length content))). split; [apply dec_says|]. intros k v Hi Hk. exfalso. apply A. now exists k, v. }
  assert (fs = rs_headers r) as ->.
  { assert (exists kv, rs_headers r = [kv]) as [kv Ek] by (destruct Ho as [[-> _]|[[-> _]|[[-> _]|[-> _]]]]; eexists; reflexivity). rewrite Ek in *. apply Permutation_sym, Permutation_length_1_inv in P. exact P. }
  exists wire. split; [exact E|]. intros a'. split; [apply U|]. now intros ->.
Qed.
Print Assumptions C123_own_responses_partial.
(** But none of them announces its length: broken off anywhere behind the head, each is taken for whole. *)
Theorem C123_cut_off_refuted : forall sz file r content, positive sz -> own_response file r content ->
  exists head, encode sz r None = (head ++ content, Ok tt) /\
    forall n, length head <= n < length (head ++ content) ->
    encode sz r (Some n) = (firstn n (head ++ content), Err EOther) /\
    forall a, received false (firstn n (head ++ content)) a <-> a = Whole (rs_status r) (rs_reason r) (rs_headers r) (firstn (n - length head) content) [].
Proof.
  intros sz file r content Hsz Ho. destruct (own_sendable file r content sz Hsz Ho) as (Hs & Hb & B & A).
  destruct (C123_cut_off_exactly sz r content false Hs Hb) as (head & E & _ & H); [intros B'; contradiction| |].
  { exists (dec (N.of_nat (length content))). split; [apply dec_says|]. intros k v Hi Hk. exfalso. apply A. now exists k, v. }
  exists head. split; [exact E|]. intros n [Hl Hn]. destruct (H n Hn) as (E2 & a & R & U & _ & W). split; [exact E2|].
  destruct (W Hl A) as (fs & P & ->).
  assert (fs = rs_headers r) as ->.
  { assert (exists kv, rs_headers r = [kv]) as [kv Ek] by (destruct Ho as [[-> _]|[[-> _]|[[-> _]|[-> _]]]]; eexists; reflexivity). rewrite Ek in *. apply Permutation_sym, Permutation_length_1_inv in P. exact P. }
  intros a'. split; [apply U|]. now intros ->.
Qed.
Print Assumptions C123_cut_off_refuted.
(** And a HEAD request that reaches [Stream::upgrade] is answered with a body behind the response, where nothing may be. *)
Theorem C123_head_refuted : forall U hash sz (req : request U), positive sz -> rq_method req = Head -> should_upgrade req = false ->
  exists head body, stream_upgrade hash sz req None = (head ++ body, Ok None) /\ body <> [] /\
    forall a, received true (head ++ body) a <-> a = Whole 400 (bs "bad request") [(bs "Content-Type", bs "text/html;charset=utf-8")] [] body.
Proof.
  intros U hash sz req Hsz _ Hu. unfold stream_upgrade. rewrite Hu. pose proof (encode_400 sz Hsz) as E. rewrite (write_response_ok sz err_400 _ E None).
  destruct (own_sendable [] err_400 _ sz Hsz (or_intror (or_intror (or_introl (conj eq_refl eq_refl))))) as (Hs & Hb & _ & _).
  destruct (sent_head sz err_400 _ Hs Hb) as (hs & P & Hok & Hp & Ht & E'). rewrite E in E'. apply (f_equal fst) in E'. cbn [fst] in E'.
  apply Permutation_sym, Permutation_length_1_inv in P. subst hs. eexists _, _. rewrite E'. cbn [res_map]. split; [reflexivity|]. split; [discriminate|].
  intros a. rewrite (received_verdict true _ _ _ _ a Hok Ht). split.
  - intros [[_ ->]|[B _]]; [reflexivity|]. exfalso. apply B. now left.
  - intros ->. left. split; [now left|reflexivity].
Qed.
Print Assumptions C123_head_refuted.

(** A response that announces its length is received as sent, and broken off inside the body it is noticed. *)
Definition counted_response : response :=
  Response [(bs "Content-Length", bs "5"); (bs "Content-Type", bs "text/plain")] (body_from_string (bs "hello")) 200 (bs "OK").
Example C123_example : sendable counted_response /\ into_bytes sz1 (rs_body counted_response) = Ok (bs "hello") /\
  announces (rs_headers counted_response) /\ announced_right (rs_headers counted_response) 5 /\
  exists wire, encode sz1 counted_response None = (wire, Ok tt) /\ received false (firstn (length wire - 2) wire) CutOff.
Proof.
  assert (sendable counted_response) as Hs.
  { split; [cbn; lia|]. split; [now apply reason_lit|]. split.
    - split; [repeat constructor; cbn [map fst In]; [intros [H|[]]; discriminate|easy]|]. split; [cbn; lia|]. apply fields_lit. vm_compute. reflexivity.
    - intros k v [[= <- _]|[[= <- _]|[]]]; vm_compute; discriminate. }
  assert (into_bytes sz1 (rs_body counted_response) = Ok (bs "hello")) as Hb by reflexivity.
  assert (announces (rs_headers counted_response)) as Ha by (exists (bs "Content-Length"), (bs "5"); split; [now left|reflexivity]).
  assert (announced_right (rs_headers counted_response) 5) as Hr.
  { exists (bs "5"). split; [split; [discriminate|]; split; [constructor; [vm_compute; split; discriminate|constructor]|reflexivity]|]. intros k v [[= <- <-]|[[= <- <-]|[]]]; [reflexivity|vm_compute; discriminate]. }
  split; [exact Hs|]. split; [exact Hb|]. split; [exact Ha|]. split; [exact Hr|].
  destruct (C123_cut_off_exactly sz1 counted_response (bs "hello") false Hs Hb) as (head & E & _ & H); [intros [[=]|[|[|]]]; cbn in *; [lia|discriminate|discriminate]|exact Hr|].
  exists (head ++ bs "hello"). split; [exact E|]. destruct (H (length (head ++ bs "hello") - 2)) as (_ & a & R & _ & [_ Ea] & _).
  { rewrite app_length. cbn. lia. }
  rewrite (Ea (or_intror Ha)) in R. exact R.
Qed.
