(** Proofs about the HTTP model, part 3: heads, header maps, URLs, request parsing. *)
From Verif Require Import Base HMap Num Utf8 Io IoProofs HttpModel HttpSpec Httparse HttpProofs HttpProofs2.
Ltac Zify.zify_post_hook ::= Z.div_mod_to_equations.

(* ------------------------------------------------------------------ *)
(** ** Well-formed heads are complete heads *)

Definition no_crlf (s : str) : Prop := ~ In x0d s /\ ~ In x0a s.

Lemma no_crlf_app a b : no_crlf a -> no_crlf b -> no_crlf (a ++ b).
Proof. unfold no_crlf. rewrite !in_app_iff. tauto. Qed.
Lemma no_crlf_forall (P : byte -> Prop) s : (forall b, P b -> b <> x0d /\ b <> x0a) -> Forall P s -> no_crlf s.
Proof. intros H F. rewrite Forall_forall in F. split; intros Hin; apply F in Hin; apply H in Hin; tauto. Qed.

(** Lines without CR or LF, none empty, then an empty line. *)
Definition lines_text (ls : list str) : str := flat_map (fun l => l ++ CRLF) ls ++ CRLF.

Lemma line_prefix l T p q : l <> [] -> no_crlf l -> l ++ CRLF ++ T = p ++ CRLF ++ CRLF ++ q ->
  (exists p', T = p' ++ CRLF ++ CRLF ++ q /\ p = l ++ CRLF ++ p') \/ (T = CRLF ++ q /\ p = l).
Proof.
  intros Hne [Hcr Hlf] E. revert l Hne Hcr Hlf E. induction p as [|c p IH]; intros l Hne Hcr Hlf E.
  - destruct l as [|x l]; [congruence|]. cbn in E. injection E as -> _. destruct Hcr. now left.
  - destruct l as [|x l]; [congruence|]. cbn [app] in E. injection E as -> E.
    assert (~ In x0d l /\ ~ In x0a l) as [Hcr' Hlf'] by (split; intros H; [apply Hcr|apply Hlf]; now right).
    destruct l as [|y l].
    + (* the line is finished *)
      cbn [app] in E. destruct p as [|p0 p]; [right; cbn in E; injection E as E; auto|].
      injection E as <- E. destruct p as [|p1 p]; [discriminate|]. injection E as <- E. left. exists p. auto.
    + assert (y :: l <> []) as Hne' by discriminate.
      destruct (IH (y :: l) Hne' Hcr' Hlf' E) as [(p' & -> & ->)|[-> ->]]; [left; exists p'|right]; auto.
Qed.

Lemma lines_complete ls : ls <> [] -> Forall (fun l => l <> [] /\ no_crlf l) ls -> complete_head (lines_text ls).
Proof.
  intros Hne H. split.
  - unfold lines_text. destruct (exists_last Hne) as (ls' & l & ->). rewrite flat_map_app. cbn [flat_map]. rewrite app_nil_r.
    exists (flat_map (fun l => l ++ CRLF) ls' ++ l). now rewrite <- !app_assoc.
  - clear Hne. induction H as [|l ls [Hl Hl'] Hls IH]; intros p q E; unfold lines_text in E; cbn [flat_map app] in E.
    + apply (f_equal (@length _)) in E. rewrite !app_length in E. cbn in E. lia.
    + rewrite <- !app_assoc in E. fold (lines_text ls) in E.
      destruct (line_prefix l (lines_text ls) p q Hl Hl' E) as [(p' & E' & ->)|[E' ->]].
      * now apply (IH p' q).
      * unfold lines_text in E'. destruct Hls as [|l' ls [Hne' [Hcr _]] _]; cbn [flat_map app] in E'.
        { unfold CRLF in E'. now inversion E'. }
        { destruct l' as [|y l']; [congruence|]. cbn in E'. injection E' as -> _. destruct Hcr. now left. }
Qed.

Lemma in_neq (l : str) (b c : byte) : existsb (byte_eqb c) l = false -> In b l -> b <> c.
Proof.
  intros H Hin ->. apply Bool.not_true_iff_false in H. apply H. apply existsb_exists. exists c. split; auto. apply byte_eqb_refl.
Qed.
Lemma tchar_nl b : tchar b -> b <> x0d /\ b <> x0a.
Proof. intros H. split; revert H; apply in_neq; reflexivity. Qed.
Lemma target_nl b : target_char b -> b <> x0d /\ b <> x0a.
Proof. intros H. split; revert H; apply in_neq; reflexivity. Qed.
Lemma field_nl b : field_char b -> b <> x0d /\ b <> x0a.
Proof. intros H. split; intros ->; unfold field_char in H; vm_compute in H; intuition discriminate. Qed.
Lemma reason_nl b : reason_char b -> b <> x0d /\ b <> x0a.
Proof. intros H. split; intros ->; unfold reason_char in H; vm_compute in H; intuition discriminate. Qed.
Lemma blank_nl b : blank b -> b <> x0d /\ b <> x0a.
Proof. intros [-> | ->]; split; discriminate. Qed.
Lemma no_crlf_lit (s : str) : existsb (byte_eqb x0d) s = false -> existsb (byte_eqb x0a) s = false -> no_crlf s.
Proof. intros H1 H2. split; intros H; [apply (in_neq _ _ _ H1) in H|apply (in_neq _ _ _ H2) in H]; congruence. Qed.

Definition field_line (f : field) : str := f_name f ++ bs ":" ++ f_pre f ++ f_value f ++ f_post f.
Lemma field_line_ok f : field_ok f -> field_line f <> [] /\ no_crlf (field_line f).
Proof.
  intros (Hn & Hn' & Hpre & Hpost & Hv & _). unfold field_line. split; [destruct (f_name f); [congruence|discriminate]|].
  apply no_crlf_app; [|apply no_crlf_app; [|apply no_crlf_app; [|apply no_crlf_app]]].
  - eapply no_crlf_forall; [apply tchar_nl|exact Hn'].
  - apply no_crlf_lit; reflexivity.
  - eapply no_crlf_forall; [apply blank_nl|exact Hpre].
  - eapply no_crlf_forall; [apply field_nl|exact Hv].
  - eapply no_crlf_forall; [apply blank_nl|exact Hpost].
Qed.
Lemma fields_lines fs : flat_map field_text fs = flat_map (fun l => l ++ CRLF) (map field_line fs).
Proof. induction fs as [|f fs IH]; cbn [flat_map map]; [reflexivity|]. rewrite IH. unfold field_text, field_line. now rewrite <- !app_assoc. Qed.

Lemma request_head_complete meth target fs : request_head_ok meth target fs -> complete_head (request_head meth target fs).
Proof.
  intros (Hm & Hm' & Ht & Ht' & Hfs & _).
  replace (request_head meth target fs) with (lines_text ((meth ++ bs " " ++ target ++ bs " HTTP/1.1") :: map field_line fs)).
  2: { unfold request_head, lines_text. cbn [flat_map]. rewrite fields_lines. now rewrite <- !app_assoc. }
  apply lines_complete; [discriminate|]. constructor.
  - split; [destruct meth; [congruence|discriminate]|].
    apply no_crlf_app; [|apply no_crlf_app; [|apply no_crlf_app]].
    + eapply no_crlf_forall; [apply tchar_nl|exact Hm'].
    + apply no_crlf_lit; reflexivity.
    + eapply no_crlf_forall; [apply target_nl|exact Ht'].
    + apply no_crlf_lit; reflexivity.
  - apply Forall_map. eapply Forall_impl; [|exact Hfs]. apply field_line_ok.
Qed.

Lemma code_text_ok code : (100 <= code <= 999)%N -> no_crlf (code_text code).
Proof.
  intros H. unfold code_text. split; cbn [In]; intros Hin;
    repeat destruct Hin as [Hin|Hin]; try (apply (f_equal b2n) in Hin; rewrite b2n_n2b in Hin); try contradiction.
  all: revert Hin; change (b2n x0d) with 13%N; change (b2n x0a) with 10%N; lia.
Qed.

Lemma response_head_complete code reason fs : response_head_ok code reason fs -> complete_head (response_head code reason fs).
Proof.
  intros (Hc & Hr & Hfs & _).
  replace (response_head code reason fs) with (lines_text ((bs "HTTP/1.1 " ++ code_text code ++ bs " " ++ reason) :: map field_line fs)).
  2: { unfold response_head, lines_text. cbn [flat_map]. rewrite fields_lines. now rewrite <- !app_assoc. }
  apply lines_complete; [discriminate|]. constructor.
  - split; [discriminate|].
    apply no_crlf_app; [|apply no_crlf_app; [|apply no_crlf_app]].
    + apply no_crlf_lit; reflexivity.
    + now apply code_text_ok.
    + apply no_crlf_lit; reflexivity.
    + eapply no_crlf_forall; [apply reason_nl|exact Hr].
  - apply Forall_map. eapply Forall_impl; [|exact Hfs]. apply field_line_ok.
Qed.

(* ------------------------------------------------------------------ *)
(** ** Header maps *)

Lemma insert_headers_ok hs m : Forall (fun kv => is_utf8 (snd kv)) hs -> insert_headers hs m = Some (extend m hs).
Proof.
  intros H. revert m. induction H as [|[k v] hs Hv Hhs IH]; intros m; cbn [insert_headers]; [reflexivity|].
  cbn [snd] in Hv. apply valid_utf8_iff in Hv. rewrite Hv. now rewrite IH.
Qed.
Lemma insert_headers_some hs m m' : insert_headers hs m = Some m' -> m' = extend m hs /\ Forall (fun kv => is_utf8 (snd kv)) hs.
Proof.
  revert m. induction hs as [|[k v] hs IH]; intros m; cbn [insert_headers]; [intros [= ->]; split; [reflexivity|constructor]|].
  destruct (valid_utf8 v) eqn:E; [|discriminate]. intros H. apply IH in H as [-> H]. split; [reflexivity|].
  constructor; auto. now apply valid_utf8_iff.
Qed.
Lemma insert_headers_bad hs m kv : In kv hs -> ~ is_utf8 (snd kv) -> insert_headers hs m = None.
Proof.
  intros Hin Hbad. destruct (insert_headers hs m) eqn:E; [|reflexivity]. apply insert_headers_some in E as [_ H].
  rewrite Forall_forall in H. now apply H in Hin.
Qed.

Lemma last_value_none (k : str) (kvs : list (str * str)) : last_value k kvs = None <-> ~ In k (map fst kvs).
Proof.
  induction kvs as [|[k' v'] kvs IH]; cbn [last_value map fst In]; [tauto|].
  destruct (last_value k kvs) as [w|].
  - split; [discriminate|]. intros H. exfalso. apply H. right. destruct (in_dec str_dec k (map fst kvs)); [auto|]. apply IH in n. discriminate.
  - destruct (str_eqb k k') eqn:Ek.
    + apply str_eqb_eq in Ek as ->. split; [discriminate|tauto].
    + apply str_eqb_neq in Ek. split; [|reflexivity]. intros _ [->|H]; [congruence|]. now apply IH.
Qed.
Lemma last_value_spec (k : str) (kvs : list (str * str)) v : last_value k kvs = Some v <->
  exists l1 l2, kvs = l1 ++ (k, v) :: l2 /\ ~ In k (map fst l2).
Proof.
  induction kvs as [|[k' v'] kvs IH]; cbn [last_value].
  - split; [discriminate|]. intros (l1 & l2 & E & _). destruct l1; discriminate.
  - destruct (last_value k kvs) as [w|] eqn:E.
    + rewrite IH. split.
      * intros (l1 & l2 & -> & H). exists ((k', v') :: l1), l2. auto.
      * intros (l1 & l2 & E' & H). destruct l1 as [|p l1]; cbn [app] in E'; inversion E'; subst; [|eauto].
        apply last_value_none in H. congruence.
    + apply last_value_none in E. split.
      * destruct (str_eqb k k') eqn:Ek; [|discriminate]. apply str_eqb_eq in Ek as ->. intros [= ->]. exists [], kvs. auto.
      * intros (l1 & l2 & E' & H). destruct l1 as [|p l1]; cbn [app] in E'; inversion E'; subst.
        -- now rewrite str_eqb_refl.
        -- destruct E. rewrite map_app. apply in_or_app. right. now left.
Qed.

(** The order oracle really enumerates the map. *)
Definition env_ok {U} (ev : env U) : Prop := forall m, hm_wf m -> Permutation m (iter_order ev m).

Lemma find_header_some name m v : find_header name m = Some v -> exists k, In (k, v) m /\ to_lower k = to_lower name.
Proof.
  unfold find_header. destruct (find _ m) as [[k w]|] eqn:E; [|discriminate]. intros [= ->].
  apply find_some in E as [Hin H]. exists k. split; auto. now apply eq_ignore_case_spec in H.
Qed.
Lemma find_header_none name m : find_header name m = None <-> forall k v, In (k, v) m -> to_lower k <> to_lower name.
Proof.
  unfold find_header. destruct (find _ m) as [[k w]|] eqn:E; cbn.
  - split; [discriminate|]. intros H. apply find_some in E as [Hin E]. apply eq_ignore_case_spec in E. now destruct (H k w Hin).
  - split; [|reflexivity]. intros _ k v Hin Heq. apply (find_none _ _ E) in Hin. cbn [fst] in Hin.
    apply eq_ignore_case_spec in Heq. congruence.
Qed.
(** With a single matching entry the lookup does not depend on the iteration order. *)
Lemma find_header_unique name m k v : In (k, v) m -> to_lower k = to_lower name ->
  (forall k' v', In (k', v') m -> to_lower k' = to_lower name -> v' = v) -> find_header name m = Some v.
Proof.
  intros Hin Hk Hu. destruct (find_header name m) as [w|] eqn:E.
  - apply find_header_some in E as (k' & Hin' & Hk'). f_equal. eauto.
  - rewrite find_header_none in E. now destruct (E k v Hin).
Qed.

(** Keys of a map built by insertion. *)
Lemma in_extend k v (hs : list (str * str)) : In (k, v) (extend [] hs) <-> last_value k hs = Some v.
Proof.
  assert (hm_wf (extend [] hs)) as W by (apply extend_wf, hm_wf_nil).
  pose proof (get_extend k [] hs) as G. split.
  - intros H. apply in_get in H; auto. rewrite G in H. cbn in H. destruct (last_value k hs); [congruence|discriminate].
  - intros H. apply get_some_in. now rewrite G, H.
Qed.

(* ------------------------------------------------------------------ *)
(** ** Request::parse on streams *)

Lemma request_parse_head {intr U} (ev : env U) s head rest tail :
  delivers intr s (head ++ rest) tail -> complete_head head ->
  exists rd, request_parse ev s = request_of_head ev head rd /\ rep intr rd rest tail /\ 0 < br_cap rd.
Proof.
  intros Hd Hc. unfold request_parse.
  destruct (@read_head_found intr (BR [] (N.to_nat 10000) s) head rest tail) as (rd & E & Hrep & Hcap); auto.
  - exists (head ++ rest). auto.
  - cbn [br_cap]. lia.
  - rewrite E. exists rd. repeat split; auto. rewrite Hcap. cbn [br_cap]. lia.
Qed.
Lemma response_parse_head {intr U} (ev : env U) s head rest tail :
  delivers intr s (head ++ rest) tail -> complete_head head ->
  exists rd, response_parse ev s = response_of_head ev head rd /\ rep intr rd rest tail /\ 0 < br_cap rd.
Proof.
  intros Hd Hc. unfold response_parse.
  destruct (@read_head_found intr (BR [] (N.to_nat 1000) s) head rest tail) as (rd & E & Hrep & Hcap); auto.
  - exists (head ++ rest). auto.
  - cbn [br_cap]. lia.
  - rewrite E. exists rd. repeat split; auto. rewrite Hcap. cbn [br_cap]. lia.
Qed.

Lemma request_parse_eof {U} (ev : env U) s l : delivers true s l [] -> no_head l -> request_parse ev s = Ok None.
Proof.
  intros Hd Hn. unfold request_parse. destruct (read_head_eof (BR [] (N.to_nat 10000) s) l) as (b' & ->); auto.
  - exists l. auto.
  - cbn [br_cap]. lia.
Qed.
Lemma request_parse_err {U} (ev : env U) s l r : delivers true s l (Fail EOther :: r) -> no_head l ->
  request_parse ev s = Err RqIoError.
Proof.
  intros Hd Hn. unfold request_parse. destruct (read_head_err (BR [] (N.to_nat 10000) s) l r) as (b' & ->); auto.
  - exists l. auto.
  - cbn [br_cap]. lia.
Qed.
Lemma response_parse_eof {U} (ev : env U) s l : delivers true s l [] -> no_head l -> response_parse ev s = Ok None.
Proof.
  intros Hd Hn. unfold response_parse. destruct (read_head_eof (BR [] (N.to_nat 1000) s) l) as (b' & ->); auto.
  - exists l. auto.
  - cbn [br_cap]. lia.
Qed.
Lemma response_parse_err {U} (ev : env U) s l r : delivers true s l (Fail EOther :: r) -> no_head l ->
  response_parse ev s = Err RsIoError.
Proof.
  intros Hd Hn. unfold response_parse. destruct (read_head_err (BR [] (N.to_nat 1000) s) l r) as (b' & ->); auto.
  - exists l. auto.
  - cbn [br_cap]. lia.
Qed.
Lemma request_of_head_total {U} (ev : env U) head rd :
  request_of_head ev head rd <> Panic /\ request_of_head ev head rd <> OutOfFuel.
Proof.
  unfold request_of_head. destruct (hq_status _); try (split; discriminate);
  (destruct (hq_method _); [|split; discriminate]; destruct (insert_headers _ _); [|split; discriminate];
   destruct (find_header _ _); [|split; discriminate]; destruct (hq_path _); [|split; discriminate];
   destruct (request_url _ _ _ _); split; discriminate).
Qed.
Lemma request_parse_total {U} (ev : env U) s : request_parse ev s <> Panic /\ request_parse ev s <> OutOfFuel.
Proof.
  unfold request_parse. pose proof (read_head_total (BR [] (N.to_nat 10000) s)) as [H1 H2].
  destruct (read_head (BR [] (N.to_nat 10000) s)) as [[[h|]|e| |] rd]; cbn [fst] in *;
    try apply request_of_head_total; try (split; discriminate); congruence.
Qed.
Lemma response_parse_total {U} (ev : env U) s : response_parse ev s <> Panic /\ response_parse ev s <> OutOfFuel.
Proof.
  unfold response_parse. pose proof (read_head_total (BR [] (N.to_nat 1000) s)) as [H1 H2].
  destruct (read_head (BR [] (N.to_nat 1000) s)) as [[[h|]|e| |] rd]; cbn [fst] in *;
    try (split; discriminate); try congruence.
  unfold response_of_head. destruct (insert_headers _ _); [|split; discriminate]. destruct (hr_code _); [|split; discriminate].
  destruct (hr_reason _); split; discriminate.
Qed.

(* ------------------------------------------------------------------ *)
(** ** The URL *)

Lemma request_url_addressed {U} (ev : env U) host meth target :
  (forall uri, addressed host meth target uri -> request_url ev host meth target = url_parse ev uri) /\
  ((forall uri, ~ addressed host meth target uri) -> request_url ev host meth target = None).
Proof.
  unfold request_url. split.
  - intros uri [t Ht|t ->|Hc Hno].
    + assert (starts_with (bs "http://") target || starts_with (bs "https://") target = true) as ->; [|reflexivity].
      apply orb_true_iff. destruct Ht as [->| ->]; [left|right]; apply starts_with_spec; eauto.
    + reflexivity.
    + assert (forall p, (forall t, target <> p ++ t) -> starts_with p target = false) as Hs.
      { intros p Hp. apply Bool.not_true_iff_false. rewrite starts_with_spec. intros (t & ->). now apply (Hp t). }
      rewrite !Hs by (intros t; apply Hno). cbn [orb].
      assert (eq_ignore_case meth (bs "connect") = true) as ->; [|reflexivity]. apply eq_ignore_case_spec. exact Hc.
  - intros Hno. destruct (starts_with (bs "http://") target || starts_with (bs "https://") target) eqn:E1.
    { exfalso. apply orb_true_iff in E1. apply (Hno target). destruct E1 as [E|E]; apply starts_with_spec in E as (t & E);
      apply absolute_form with t; auto. }
    destruct (starts_with (bs "/") target) eqn:E2.
    { exfalso. apply starts_with_spec in E2 as (t & ->). eapply Hno. eapply origin_form. reflexivity. }
    destruct (eq_ignore_case meth (bs "connect")) eqn:E3; [|reflexivity].
    exfalso. apply eq_ignore_case_spec in E3. apply (Hno (bs "http://" ++ host ++ bs "/")). apply connect_form; [exact E3|].
    intros t. apply orb_false_iff in E1 as [Ea Eb].
    assert (forall p, starts_with p target = false -> target <> p ++ t) as Hp.
    { intros p Hp ->. apply Bool.not_true_iff_false in Hp. apply Hp. apply starts_with_spec. eauto. }
    auto.
Qed.
