(** C129: the order of the routes, and routes that are never taken. The crate [url] is assumed to implement the URL Standard, as in PropUrl. *)
From Verif Require Import Base Num HMap Io IoProofs Utf8 HttpSpec HttpModel HttpProofs3 HttpLemmas HttpLemmas2 Httparse RouterModel RouterProofs UrlSpec UrlProofs PropUrl PropReach.
From Coq Require Import Lia Permutation.

(** Routes whose matchers are built from Match::new and at (match_url.rs:14-23), asked as the examples do:
    |req| Match::new().at(..).does_match(&req.url). *)
Definition asks {U} (ev : env U) (pattern : list segment) (r : request U) : bool := does_match ev (matcher_of pattern) (rq_url r).
(** The handler calls for a request when the routes were added in the order of [rs]. *)
Definition calls {U S H} (ev : env U) (rs : list (route (list segment) H)) (r : request U) (st : S) : list (H * request U * S) :=
  respond (asks ev) (fold_left router_route rs router_new) r st.

(** Specification: two patterns overlap if they have the same length and at no position different texts, or a text that is
    no number and an integer. *)
Definition overlap_at (a b : segment) : Prop :=
  match a, b with
  | Static t, Static u => t = u
  | Static t, IntParam | IntParam, Static t => i32_literal t
  | _, _ => True
  end.
Definition overlap (p q : list segment) : Prop := Forall2 overlap_at p q.

(** Specification: [p] covers [q] if they have the same length and at each position [p] has a parameter, or the same as
    [q], or an integer where [q] has a text that is one. *)
Definition covers_at (a b : segment) : Prop := a = Param \/ a = b \/ (a = IntParam /\ exists t, b = Static t /\ i32_literal t).
Definition covers (p q : list segment) : Prop := Forall2 covers_at p q.

(** Specification: the connection [s] starts with a request for the path [/seg/seg/..], perhaps with a query, and one Host
    field that names a host. *)
Definition request_for {U} (ev : env U) (s : stream) (segs : list str) : Prop :=
  exists meth q fs rest tail k host, (q = [] \/ exists t, q = bs "?" ++ t) /\
    sent ev s meth (flat_map (fun p => bs "/" ++ p) segs ++ q) fs rest tail /\ all_utf8 fs /\
    last_field k host fs /\ to_lower k = bs "host" /\ spelled_once (bs "host") fs /\ host_only host.

Lemma asks_exactly {U} (ev : env U) s segs r : url_standard ev -> segs <> [] -> Forall own_segment segs -> request_for ev s segs ->
  request_parse ev s = Ok (Some r) -> forall pattern, asks ev pattern r = true <-> Forall2 segment_accepts pattern segs.
Proof.
  intros Hstd Hsn Hown (meth & q & fs & rest & tail & k & host & Hq & Hs & Hu & Hl & Hk & Ho & Hh) E pattern.
  assert (target_segments (flat_map (fun p => bs "/" ++ p) segs ++ q) = segs) as Et.
  { apply C105_ordinary_targets; auto. destruct Hq as [->|(t & ->)]; eauto. }
  assert (exists t, flat_map (fun p => bs "/" ++ p) segs ++ q = bs "/" ++ t) as (t & Ett).
  { destruct segs as [|x l]; [congruence|]. cbn [flat_map]. rewrite <- !app_assoc. eauto. }
  rewrite Ett in *. destruct (C105_target_decides_partial U ev s meth t fs rest tail k host r Hstd Hs Hu Hl Hk Ho Hh E) as (_ & _ & H).
  unfold asks, matcher_of. rewrite H, Et. reflexivity.
Qed.

(** What two patterns both accept overlaps. *)
Lemma both_overlap p : forall q segs, Forall2 segment_accepts p segs -> Forall2 segment_accepts q segs -> overlap p q.
Proof.
  induction p as [|a p IH]; intros q segs Hp Hq; inversion Hp; subst; inversion Hq; subst; [constructor|].
  constructor; [|eapply IH; eassumption]. destruct a, x; cbn in *; subst; auto.
Qed.
Lemma asks_overlap {U} (ev : env U) r p q : asks ev p r = true -> asks ev q r = true -> overlap p q.
Proof.
  unfold asks, matcher_of. rewrite !does_match_spec. intros (s1 & E1 & H1) (s2 & E2 & H2). rewrite E1 in E2. injection E2 as <-.
  eapply both_overlap; eassumption.
Qed.
Lemma overlap_sym p q : overlap p q -> overlap q p.
Proof. induction 1 as [|a b p q H _ IH]; constructor; [destruct a, b; cbn in *; auto|exact IH]. Qed.

(** ** Routes of which no two overlap may be added in any order, and any request is handled the same. *)
Theorem C129_any_order : forall U S H (ev : env U) (rs rs' : list (route (list segment) H)) (r : request U) (st : S),
  ForallOrdPairs (fun x y => ~ overlap (rt_matcher x) (rt_matcher y)) rs -> Permutation rs rs' ->
  calls ev rs' r st = calls ev rs r st.
Proof.
  intros U S H ev rs rs' r st Hno Hp. unfold calls.
  destruct (respond_spec (asks ev) rs r st) as [(r1 & x & r2 & E & F & Hx & ->)|[F ->]];
  destruct (respond_spec (asks ev) rs' r st) as [(r1' & x' & r2' & E' & F' & Hx' & ->)|[F' ->]].
  - assert (In x rs) as I1 by (rewrite E; apply in_elt).
    assert (In x' rs) as I2 by (eapply Permutation_in; [apply Permutation_sym, Hp|rewrite E'; apply in_elt]).
    destruct (ForallOrdPairs_In Hno x x' I1 I2) as [->|[N|N]]; [reflexivity|exfalso; apply N|exfalso; apply N]; eapply asks_overlap; eassumption.
  - exfalso. rewrite Forall_forall in F'. rewrite F' in Hx; [discriminate|]. eapply Permutation_in; [exact Hp|rewrite E; apply in_elt].
  - exfalso. rewrite Forall_forall in F. rewrite F in Hx'; [discriminate|]. eapply Permutation_in; [apply Permutation_sym, Hp|rewrite E'; apply in_elt].
  - reflexivity.
Qed.
Print Assumptions C129_any_order.

(** ** Two routes that overlap (and can be reached, C128) may not: some requests are handled by whichever was added first. *)
Definition common (a b : segment) : str := match a, b with Static t, _ => t | _, Static t => t | _, _ => bs "0" end.
Lemma own_0 : own_segment (bs "0").
Proof. split; [repeat constructor|]. intros [D|D]; vm_compute in D; discriminate. Qed.
Lemma literal_0 : i32_literal (bs "0").
Proof. apply (proj1 (parse_i32_spec (bs "0"))). eexists. vm_compute. reflexivity. Qed.

Theorem C129_order_matters : forall p q, p <> [] -> Forall can_be_met p -> Forall can_be_met q -> overlap p q ->
  exists segs, segs <> [] /\ Forall own_segment segs /\
  forall U S H (ev : env U) (hp hq : H) s r (st : S), url_standard ev -> request_for ev s segs -> request_parse ev s = Ok (Some r) ->
    calls ev [Route p hp; Route q hq] r st = [(hp, r, st)] /\ calls ev [Route q hq; Route p hp] r st = [(hq, r, st)].
Proof.
  intros p q Hne Mp Mq Ho.
  assert (exists segs, length segs = length p /\ Forall own_segment segs /\ Forall2 segment_accepts p segs /\ Forall2 segment_accepts q segs) as (segs & Hl & Hown & Hp & Hq).
  { clear Hne. induction Ho as [|a b p q Hab Ho IH]; [exists []; repeat constructor|].
    inversion Mp; subst. inversion Mq; subst. destruct IH as (segs & L & O & P & Q); auto. exists (common a b :: segs).
    split; [cbn [length]; now rewrite L|]. split; [|split]; constructor; auto; destruct a, b; cbn in *; subst; auto using own_0, literal_0. }
  exists segs. assert (segs <> []) as Hsn by (intros ->; destruct p; [congruence|discriminate]). split; [exact Hsn|]. split; [exact Hown|].
  intros U S H ev hp hq s r st Hstd Hr E.
  pose proof (proj2 (asks_exactly ev s segs r Hstd Hsn Hown Hr E p) Hp) as Ap. pose proof (proj2 (asks_exactly ev s segs r Hstd Hsn Hown Hr E q) Hq) as Aq.
  unfold calls. cbn. now rewrite Ap, Aq.
Qed.
Print Assumptions C129_order_matters.

Lemma routes_as_added {H} (l : list (route (list segment) H)) : fold_left router_route l router_new = l.
Proof.
  assert (forall l acc, fold_left (@router_route (list segment) H) l acc = acc ++ l) as G.
  { clear l. induction l as [|a l IH]; intros acc; cbn; [now rewrite app_nil_r|]. rewrite IH. unfold router_route. now rewrite <- app_assoc. }
  apply (G l []).
Qed.

(** ** A route is never taken exactly if one of the routes before it covers it (or no request reaches it anyway, C128). *)
Theorem C129_covered_is_dead : forall U S H (ev : env U) (before between after : list (route (list segment) H)) y x (r : request U) (st : S),
  covers (rt_matcher y) (rt_matcher x) ->
  calls ev (before ++ y :: between ++ x :: after) r st = calls ev (before ++ y :: between ++ after) r st.
Proof.
  intros U S H ev before between after y x r st Hc.
  assert (asks ev (rt_matcher x) r = true -> asks ev (rt_matcher y) r = true) as Hi.
  { unfold asks, matcher_of. rewrite !does_match_spec. intros (segs & E & HF). exists segs. split; [exact E|]. clear E. revert segs HF.
    induction Hc as [|a b p q Hab Hc IH]; intros segs HF; inversion HF; subst; constructor; [|now apply IH].
    destruct Hab as [->|[->|(-> & t & -> & Ht)]]; cbn in *; subst; auto. }
  unfold calls.
  rewrite !routes_as_added. induction before as [|b before IH]; cbn [app respond]; [|destruct (asks ev (rt_matcher b) r); [reflexivity|exact IH]].
  destruct (asks ev (rt_matcher y) r) eqn:Ey; [reflexivity|].
  assert (asks ev (rt_matcher x) r = false) as Ex by (clear - Hi Ey; destruct (asks ev (rt_matcher x) r); [specialize (Hi eq_refl); congruence|reflexivity]).
  induction between as [|b l IH]; cbn [app respond]; [now rewrite Ex|]. destruct (asks ev (rt_matcher b) r); [reflexivity|exact IH].
Qed.
Print Assumptions C129_covered_is_dead.

(** A text for each position that only what covers the position accepts, given that the texts in question are shorter than [n]. *)
Definition telling (n : nat) (b : segment) : str := match b with Static t => t | Param => repeat x61 n | IntParam => repeat x30 n end.
Lemma zeros_literal n : i32_literal (repeat x30 (S n)).
Proof.
  exists [], (repeat x30 (S n)). split; [reflexivity|]. split; [auto|]. split; [discriminate|]. split.
  - apply Forall_forall. intros b Hb. apply repeat_spec in Hb. subst. vm_compute. split; discriminate.
  - assert (digits_value (repeat x30 (S n)) = 0%N) as ->; [|cbn; lia].
    unfold digits_value. generalize (S n). intros m. induction m as [|m IH]; [reflexivity|]. cbn [repeat fold_left]. exact IH.
Qed.
Lemma letters_no_literal n : ~ i32_literal (repeat x61 (S n)).
Proof.
  intros (sign & ds & E & [->|[->| ->]] & Hne & Hd & _); cbn in E; try discriminate. subst ds.
  inversion Hd as [|? ? H]; subst. unfold is_digit in H. vm_compute in H. destruct H as [_ H]. now apply H.
Qed.
Lemma telling_own n b : can_be_met b -> own_segment (telling (S n) b).
Proof.
  assert (forall c, own_byte c -> Ascii.ascii_of_byte c <> Ascii.ascii_of_byte x2e -> (c = x61 \/ c = x30) -> own_segment (repeat c (S n))) as G.
  { intros c Hc _ Hcc. split.
    - apply Forall_forall. intros b' Hb. apply repeat_spec in Hb. now subst.
    - intros [D|D]; unfold one_dot, two_dots in D; destruct Hcc as [->| ->]; cbn in D; discriminate. }
  destruct b; intros H; cbn [can_be_met telling] in *; [exact H|apply G|apply G]; try (vm_compute; discriminate); auto; split; reflexivity.
Qed.
Lemma telling_accepted n b : segment_accepts b (telling (S n) b).
Proof. destruct b; cbn [segment_accepts telling]; auto using zeros_literal. Qed.
Definition short (n : nat) (a : segment) : Prop := match a with Static t => length t < n | _ => True end.
Lemma telling_covers n y x : Forall (short (S n)) y -> Forall2 segment_accepts y (map (telling (S n)) x) -> covers y x.
Proof.
  revert x. induction y as [|a y IH]; intros x Hs HF; destruct x as [|b x]; inversion HF; subst; [constructor|].
  inversion Hs; subst. constructor; [|now apply IH]. unfold covers_at.
  destruct a as [t| |]; [|now left|]; destruct b as [u| |]; cbn [segment_accepts telling short] in *; subst; auto.
  - rewrite repeat_length in *. lia.
  - rewrite repeat_length in *. lia.
  - right. right. split; [reflexivity|]. eauto.
  - exfalso. eapply letters_no_literal; eassumption.
Qed.
Lemma all_short (ps : list (list segment)) : exists n, Forall (Forall (short (S n))) ps.
Proof.
  assert (forall n m a, n <= m -> short (S n) a -> short (S m) a) as Mono by (intros n m [t| |] Hnm; cbn; intros; auto; lia).
  assert (forall p, exists n, Forall (short (S n)) p) as Hp.
  { induction p as [|a p (n & IH)]; [exists 0; constructor|].
    exists (n + match a with Static t => length t | _ => 0 end). constructor.
    - destruct a; cbn; auto. lia.
    - eapply Forall_impl; [|exact IH]. intros. eapply Mono; [|eassumption]. lia. }
  induction ps as [|p ps (n & IH)]; [exists 0; constructor|]. destruct (Hp p) as (m & Hm). exists (n + m). constructor.
  - eapply Forall_impl; [|exact Hm]. intros. eapply Mono; [|eassumption]. lia.
  - eapply Forall_impl; [|exact IH]. intros q Hq. eapply Forall_impl; [|exact Hq]. intros. eapply Mono; [|eassumption]. lia.
Qed.

(** If no single earlier route covers it, then not all of them together do: there is a path (with "0"s and "a"s for the
    parameters) such that every request for it is handled by this route. *)
Theorem C129_otherwise_alive : forall H (before : list (route (list segment) H)) x, rt_matcher x <> [] -> Forall can_be_met (rt_matcher x) ->
  Forall (fun y => ~ covers (rt_matcher y) (rt_matcher x)) before ->
  exists segs, segs <> [] /\ Forall own_segment segs /\
  forall U S (ev : env U) after s r (st : S), url_standard ev -> request_for ev s segs -> request_parse ev s = Ok (Some r) ->
    calls ev (before ++ x :: after) r st = [(rt_handler x, r, st)].
Proof.
  intros H before x Hne Hm Hb. destruct (all_short (map rt_matcher before)) as (n & Hn).
  exists (map (telling (S n)) (rt_matcher x)).
  assert (map (telling (S n)) (rt_matcher x) <> []) as Hsn by (destruct (rt_matcher x); [congruence|discriminate]).
  assert (Forall own_segment (map (telling (S n)) (rt_matcher x))) as Hown by (apply Forall_map; eapply Forall_impl; [|exact Hm]; intros; now apply telling_own).
  split; [exact Hsn|]. split; [exact Hown|]. intros U S ev after s r st Hstd Hr E.
  pose proof (asks_exactly ev s _ r Hstd Hsn Hown Hr E) as A.
  assert (asks ev (rt_matcher x) r = true) as Ax.
  { apply A. clear. induction (rt_matcher x) as [|b l IH]; constructor; [apply telling_accepted|exact IH]. }
  assert (Forall (fun y => asks ev (rt_matcher y) r = false) before) as Ab.
  { apply Forall_forall. intros y Hy. destruct (asks ev (rt_matcher y) r) eqn:Ey; [|reflexivity]. exfalso.
    rewrite Forall_forall in Hb. apply (Hb y Hy). apply A in Ey. eapply telling_covers; [|exact Ey].
    rewrite Forall_forall in Hn. apply Hn. now apply in_map. }
  unfold calls. rewrite routes_as_added. induction Ab as [|y l Hy _ IH]; cbn [app respond]; [now rewrite Ax|]. rewrite Hy.
  apply IH; [now inversion Hb|now inversion Hn].
Qed.
Print Assumptions C129_otherwise_alive.

(** Not vacuous. *)
Definition page (t : str) : list segment := [Static (bs "a"); Static t].
Example C129_examples : url_standard std_env /\
  ForallOrdPairs (fun x y => ~ overlap (rt_matcher x) (rt_matcher y)) [Route (page (bs "b")) 1; Route (page (bs "c")) 2; Route [Static (bs "a"); IntParam] 3] /\
  overlap [Static (bs "a"); Param] (page (bs "b")) /\ covers [Static (bs "a"); Param] (page (bs "b")) /\
  ~ covers [Static (bs "a"); IntParam] [Static (bs "a"); Param] /\ ~ covers (page (bs "b")) [Static (bs "a"); Param] /\
  exists r, request_for std_env [Data (get_of (bs "/a/b"))] [bs "a"; bs "b"] /\
    request_parse std_env [Data (get_of (bs "/a/b"))] = Ok (Some r) /\
    calls std_env [Route (page (bs "c")) 2; Route [Static (bs "a"); Param] 3; Route (page (bs "b")) 1] r tt = [(3, r, tt)].
Proof.
  assert (forall t, i32_literal t -> exists v, parse_i32 t = Some v) as L by (intros t; apply parse_i32_spec).
  split; [apply std_env_standard|]. split.
  { assert (forall a b, bs a <> bs b -> ~ overlap (page (bs a)) (page (bs b))) as N1.
    { intros a b Hab H. inversion H as [|? ? ? ? _ H']; subst. inversion H' as [|? ? ? ? H'' _]; subst. exact (Hab H''). }
    assert (forall a, parse_i32 (bs a) = None -> ~ overlap (page (bs a)) [Static (bs "a"); IntParam]) as N2.
    { intros a Ha H. inversion H as [|? ? ? ? _ H']; subst. inversion H' as [|? ? ? ? H'' _]; subst. destruct (L _ H'') as [v Hv]. congruence. }
    repeat constructor; [apply N1; discriminate|apply N2; reflexivity|apply N2; reflexivity]. }
  split; [repeat constructor|]. split; [constructor; [right; left; reflexivity|]; constructor; [left; reflexivity|constructor]|]. split.
  { intros H. inversion H as [|? ? ? ? _ H']; subst. inversion H' as [|? ? ? ? [K|[K|(K & t & K' & _)]] _]; subst; discriminate. }
  split.
  { intros H. inversion H as [|? ? ? ? _ H']; subst. inversion H' as [|? ? ? ? [K|[K|(K & t & K' & _)]] _]; subst; discriminate. }
  eexists. split; [|split; vm_compute; reflexivity].
  destruct std_env_standard as [_ Henv].
  destruct (to_host_ok (bs "h") eq_refl _ std_env httparse_reads_requests Henv) as (Hs & Hu & Hl & Hk & Ho).
  exists (bs "GET"), [], (to_host (bs "h")), [], [], (bs "Host"), (bs "h").
  split; [now left|]. split; [exact Hs|]. split; [exact Hu|]. split; [exact Hl|]. split; [exact Hk|]. split; [exact Ho|].
  split; [discriminate|repeat constructor].
Qed.
