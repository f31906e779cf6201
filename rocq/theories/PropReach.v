(** C128: which routes can be reached. The crate [url] is assumed to implement the URL Standard, as in PropUrl. *)
From Verif Require Import Base Num HMap Io IoProofs Utf8 HttpSpec HttpModel HttpProofs3 HttpLemmas HttpLemmas2 Httparse RouterModel RouterProofs UrlSpec UrlProofs PropUrl.
From Coq Require Import Lia.

(** A matcher as a program builds it: Match::new().at(..).at(..) (match_url.rs:14-23). *)
Definition matcher_of (pattern : list segment) : matcher := fold_left match_at pattern match_new.

(** Specification. The texts a matcher can meet: no control characters, spaces, non-ASCII characters, slashes, quotation
    marks, #, <, >, ?, `, {, } (the URL Standard percent-encodes them or takes them for something else), and not "." or
    ".." in any spelling. *)
Definition can_be_met (e : segment) : Prop := match e with Static t => own_segment t | Param | IntParam => True end.

(** Whatever the client sends: a matcher without segments, or with a text that is none of these, accepts no request. *)
Theorem C128_never_reached_refuted : forall U (ev : env U) pattern, url_standard ev -> pattern = [] \/ Exists (fun e => ~ can_be_met e) pattern ->
  forall s r, request_parse ev s = Ok (Some r) -> does_match ev (matcher_of pattern) (rq_url r) = false.
Proof.
  intros U ev pattern Hstd Hp s r E. destruct (does_match ev (matcher_of pattern) (rq_url r)) eqn:D; [|reflexivity]. exfalso.
  apply does_match_spec in D as (parts & Hparts & HF).
  destruct (parsed_has_host ev s r E) as (k & host & meth & target & uri & _ & _ & A & Eu).
  assert (exists t, uri = bs "http://" ++ t \/ uri = bs "https://" ++ t) as (t & Ht) by (destruct A as [t [->| ->]|t _|_ _]; eauto).
  destruct (Hstd uri t _ Ht Eu) as [_ Hseg]. rewrite Hseg in Hparts. injection Hparts as <-.
  destruct (path_segments_fine uri) as [Hne Hf]. destruct Hp as [->|Hx]; [inversion HF; congruence|].
  clear Hne Hseg Ht Eu E A. induction HF as [|e a pattern segs He HF IH]; [inversion Hx|]. inversion Hf as [|? ? [Hd Hb] Hf']; subst.
  inversion Hx as [? ? Hn|? ? Hn]; subst; [|now apply IH]. apply Hn. destruct e as [p| |]; cbn [can_be_met segment_accepts] in *; auto. subst p.
  split; [|exact Hd]. eapply Forall_impl; [|exact Hb]. intros b (_ & H1 & H2). now split.
Qed.
Print Assumptions C128_never_reached_refuted.

(** Every other matcher accepts a path, and every request for that path (and any query) that names a host. *)
Theorem C128_reached : forall pattern, pattern <> [] -> Forall can_be_met pattern ->
  exists segs, Forall own_segment segs /\ segs <> [] /\
  forall U (ev : env U) s meth q fs rest tail k host r, url_standard ev ->
    (q = [] \/ exists t, q = bs "?" ++ t) -> sent ev s meth (flat_map (fun p => bs "/" ++ p) segs ++ q) fs rest tail -> all_utf8 fs ->
    last_field k host fs -> to_lower k = bs "host" -> spelled_once (bs "host") fs -> host_only host ->
    request_parse ev s = Ok (Some r) -> does_match ev (matcher_of pattern) (rq_url r) = true.
Proof.
  intros pattern Hne Hp.
  assert (own_segment (bs "0")) as H0.
  { split; [repeat constructor|]. intros [D|D]; vm_compute in D; discriminate. }
  exists (map (fun e => match e with Static t => t | _ => bs "0" end) pattern). split; [|split].
  - apply Forall_map. eapply Forall_impl; [|exact Hp]. intros [t| |] H; auto.
  - destruct pattern; [congruence|discriminate].
  - set (segs := map _ pattern). intros U ev s meth q fs rest tail k host r Hstd Hq Hs Hu Hl Hk Ho Hh E.
    assert (Forall own_segment segs) as Hown by (apply Forall_map; eapply Forall_impl; [|exact Hp]; intros [t| |] H; auto).
    assert (segs <> []) as Hsn by (unfold segs; destruct pattern; [congruence|discriminate]).
    assert (target_segments (flat_map (fun p => bs "/" ++ p) segs ++ q) = segs) as Et.
    { apply C105_ordinary_targets; auto. destruct Hq as [->|(t & ->)]; eauto. }
    assert (exists t, flat_map (fun p => bs "/" ++ p) segs ++ q = bs "/" ++ t) as (t & Ett).
    { destruct segs as [|x l]; [congruence|]. cbn [flat_map]. rewrite <- !app_assoc. eauto. }
    rewrite Ett in *. destruct (C105_target_decides_partial U ev s meth t fs rest tail k host r Hstd Hs Hu Hl Hk Ho Hh E) as (_ & _ & H).
    apply H. rewrite Et. unfold segs. clear. induction pattern as [|e pattern IH]; [constructor|]. cbn [map]. constructor; [|exact IH].
    destruct e as [p| |]; auto. apply (proj1 (parse_i32_spec (bs "0"))). eexists. vm_compute. reflexivity.
Qed.
Print Assumptions C128_reached.

(** A link to the page with the texts [ts] in its path (each percent-encoded, as browsers write it): the route for these
    texts is taken for it exactly if no text needs encoding. *)
Theorem C128_link_exactly : forall U (ev : env U) s meth ts q fs rest tail k host r, url_standard ev -> ts <> [] ->
  (q = [] \/ exists t, q = bs "?" ++ t) -> sent ev s meth (flat_map (fun t => bs "/" ++ encode_segment t) ts ++ q) fs rest tail -> all_utf8 fs ->
  last_field k host fs -> to_lower k = bs "host" -> spelled_once (bs "host") fs -> host_only host ->
  request_parse ev s = Ok (Some r) ->
  (does_match ev (matcher_of (map Static ts)) (rq_url r) = true <-> Forall own_segment ts).
Proof.
  intros U ev s meth ts q fs rest tail k host r Hstd Hne Hq Hs Hu Hl Hk Ho Hh E. split.
  - intros D. apply Forall_forall. intros t Ht.
    assert (forall (P : Prop), (P \/ ~ P) -> ~ ~ P -> P) as NN by (intros P [?|?] ?; [assumption|contradiction]).
    assert (own_segment t \/ ~ own_segment t) as [H|H]; [|exact H|].
    { assert (Forall own_byte t \/ ~ Forall own_byte t) as [H|H].
      { clear. induction t as [|c t [IH|IH]]; [left; constructor| |right; intros H; inversion H; contradiction].
        destruct (is_slash c) eqn:E1; [right; intros H; inversion H as [|? ? [? ?] ?]; congruence|].
        destruct (path_encoded c) eqn:E2; [right; intros H; inversion H as [|? ? [? ?] ?]; congruence|]. left. constructor; [split; assumption|exact IH]. }
      - unfold own_segment, dot_segment. destruct (one_dot t); [right; intros [_ N]; apply N; auto|]. destruct (two_dots t); [right; intros [_ N]; apply N; auto|].
        left. split; [exact H|]. intros [?|?]; discriminate.
      - right. intros [? _]. contradiction. }
    exfalso. rewrite (C128_never_reached_refuted U ev (map Static ts) Hstd) with (s := s) in D; [discriminate| |exact E].
    right. apply Exists_exists. exists (Static t). split; [now apply in_map|exact H].
  - intros Hown.
    assert (flat_map (fun t => bs "/" ++ encode_segment t) ts = flat_map (fun p => bs "/" ++ p) ts) as Ef.
    { clear -Hown. induction Hown as [|t ts [Ht _] H IH]; [reflexivity|]. cbn [flat_map]. rewrite IH, encode_own by exact Ht. reflexivity. }
    rewrite Ef in Hs.
    assert (target_segments (flat_map (fun p => bs "/" ++ p) ts ++ q) = ts) as Et.
    { apply C105_ordinary_targets; auto. destruct Hq as [->|(t & ->)]; eauto. }
    assert (exists t, flat_map (fun p => bs "/" ++ p) ts ++ q = bs "/" ++ t) as (t & Ett).
    { destruct ts as [|x l]; [congruence|]. cbn [flat_map]. rewrite <- !app_assoc. eauto. }
    rewrite Ett in *. destruct (C105_target_decides_partial U ev s meth t fs rest tail k host r Hstd Hs Hu Hl Hk Ho Hh E) as (_ & _ & H).
    apply H. rewrite Et. clear. induction ts as [|x ts IH]; [constructor|]. cbn [map]. now constructor.
Qed.
Print Assumptions C128_link_exactly.

(** Not vacuous: the page "two eggs" has a route that no request reaches; "a" does. *)
Definition get_of (target : str) : str := request_head (bs "GET") target (to_host (bs "h")) ++ [].
Example C128_examples : url_standard std_env /\
  (exists r, request_parse std_env [Data (get_of (bs "/a/x/7"))] = Ok (Some r) /\
     does_match std_env (matcher_of [Static (bs "a"); Param; IntParam]) (rq_url r) = true) /\
  (exists r, request_parse std_env [Data (get_of (bs "/two%20eggs"))] = Ok (Some r) /\ url_segments std_env (rq_url r) = Some [bs "two%20eggs"] /\
     does_match std_env (matcher_of [Static (bs "two eggs")]) (rq_url r) = false) /\
  encode_segment (bs "two eggs") = bs "two%20eggs" /\ ~ can_be_met (Static (bs "two eggs")) /\ can_be_met (Static (bs "a")).
Proof.
  split; [apply std_env_standard|]. split; [eexists; split; vm_compute; reflexivity|]. split; [eexists; split; [vm_compute; reflexivity|split; vm_compute; reflexivity]|].
  split; [vm_compute; reflexivity|]. split.
  - intros [H _]. rewrite Forall_forall in H. destruct (H x20) as [_ K]; [cbn; auto|discriminate].
  - split; [repeat constructor|]. intros [D|D]; vm_compute in D; discriminate.
Qed.
