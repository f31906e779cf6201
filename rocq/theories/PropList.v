(** The list example: C68, C78. *)
From Verif Require Import Base Num Utf8 HttpModel RouterModel RouterProofs ListModel.
From Coq Require Import Lia.

(* ------------------------------------------------------------------ *)
(** ** C68. The last [n] items: drop all but [n] (or nothing, if there are fewer). *)
Definition last_items (n : N) (l : list str) : list str := skipn (length l - N.to_nat n) l.
(** The server does not do that: whenever there are more than [n] items, it replies with something else (all of
    them). *)
Theorem C68_last_n_refuted : forall items n, (n < N.of_nat (length items))%N -> list_handle items (LastN n) <> (items, Items (last_items n items)).
Proof.
  intros items n H E. cbn [list_handle] in E. destruct (N.of_nat (length items) <? n)%N; injection E as E; apply (f_equal (@length str)) in E;
    unfold last_items in E; rewrite ?skipn_length in E; cbn [skipn] in E; lia.
Qed.
Print Assumptions C68_last_n_refuted.
(** With at most [n] items the reply is right. *)
Theorem C68_last_n_partial : forall items n, (N.of_nat (length items) <= n)%N -> list_handle items (LastN n) = (items, Items (last_items n items)).
Proof.
  intros items n H. unfold last_items. replace (length items - N.to_nat n) with 0 by lia. cbn [list_handle skipn]. now destruct (N.of_nat (length items) <? n)%N.
Qed.
Print Assumptions C68_last_n_partial.

(** A body that declares (in Content-Length) more than [lim] bytes. *)
Definition too_long (lim : N) (declared : option N) : Prop := exists n, declared = Some n /\ (lim < n)%N.
Lemma too_long_iff lim declared : N.ltb lim (match declared with Some n => n | None => 0%N end) = true <-> too_long lim declared.
Proof.
  unfold too_long. rewrite N.ltb_lt. destruct declared as [n|]; split.
  - eauto.
  - now intros (m & [= <-] & H).
  - lia.
  - now intros (m & [=] & _).
Qed.
(** The items posted by a history of requests (by method, path, declared length and body), in order. *)
Inductive posts (lim : N) : list (method * str * option N * str) -> list str -> Prop :=
| posts_none : posts lim [] []
| posts_item rs l t declared : posts lim rs l -> is_utf8 (bs "message=" ++ t) -> ~ too_long lim declared ->
    posts lim (rs ++ [(Post, bs "/submit", declared, bs "message=" ++ t)]) (l ++ [t])
| posts_other rs l m path declared body : posts lim rs l ->
    ~ (m = Post /\ path = bs "/submit" /\ ~ too_long lim declared /\ is_utf8 body /\ exists t, body = bs "message=" ++ t) ->
    posts lim (rs ++ [(m, path, declared, body)]) l.

Lemma seg_path segs path : path_segments path = Some segs <-> exists rest, path = x2f :: rest /\ segs = split_on x2f rest.
Proof.
  unfold path_segments. destruct path as [|c rest]; [split; [discriminate|intros (r & [=] & _)]|]. destruct (byte_eqb c x2f) eqn:E.
  - apply byte_eqb_eq in E as ->. split; [intros [= <-]; eauto|]. intros (r & [= ->] & ->). reflexivity.
  - split; [discriminate|]. intros (r & [= -> _] & _). now rewrite byte_eqb_refl in E.
Qed.
Lemma split_join c s : concat (map (fun p => c :: p) (split_on c s)) = c :: s.
Proof.
  induction s as [|x s IH]; [reflexivity|]. cbn [split_on]. destruct (byte_eqb x c) eqn:E.
  - apply byte_eqb_eq in E as ->. cbn [map concat app]. now rewrite IH.
  - destruct (split_on c s) as [|p ps]; [discriminate|]. cbn [map concat app] in *. injection IH as ->. reflexivity.
Qed.
Lemma submit_path path : path_matches (match_at match_new (Static (bs "submit"))) path = true <-> path = bs "/submit".
Proof.
  split.
  - unfold path_matches. destruct (path_segments path) as [segs|] eqn:E; [|discriminate]. apply seg_path in E as (rest & -> & ->). intros H. apply match_loop_spec in H.
    inversion H as [|? p ? ps E1 E2 E3 E4]; subst. cbn in E1. subst p. inversion E2; subst. pose proof (split_join x2f rest) as J. rewrite <- E4 in J. cbn in J. rewrite <- J. reflexivity.
  - intros ->. vm_compute. reflexivity.
Qed.
Lemma read_path path : path_matches (match_at (match_at match_new (Static (bs "read"))) IntParam) path = true <-> exists s, path = bs "/read/" ++ s /\ i32_literal s.
Proof.
  split.
  - unfold path_matches. destruct (path_segments path) as [segs|] eqn:E; [|discriminate]. apply seg_path in E as (rest & -> & ->). intros H. apply match_loop_spec in H.
    inversion H as [|? p ? ps E1 E2 E3 E4]; subst. cbn in E1. subst p. inversion E2 as [|? s ? qs E5 E6 E7 E8]; subst. inversion E6; subst. cbn in E5.
    pose proof (split_join x2f rest) as J. rewrite <- E4 in J. cbn [map concat app] in J. rewrite app_nil_r in J. rewrite <- J. exists s. split; [reflexivity|exact E5].
  - intros (s & -> & Hs). unfold path_matches. change (bs "/read/" ++ s) with (x2f :: bs "read" ++ x2f :: s). cbn [path_segments]. rewrite byte_eqb_refl.
    assert (~ In x2f s) as Hn.
    { destruct Hs as (sign & ds & -> & Hsg & _ & Hd & _). intros Hi. apply in_app_iff in Hi as [Hi|Hi].
      - destruct Hsg as [->|[->| ->]]; cbn in Hi; intuition discriminate.
      - rewrite Forall_forall in Hd. apply Hd in Hi. unfold is_digit in Hi. vm_compute in Hi. intuition congruence. }
    rewrite split_on_app by (cbn; intuition discriminate). rewrite split_on_plain by exact Hn. apply match_loop_spec. constructor; [reflexivity|]. constructor; [exact Hs|constructor].
Qed.

Lemma request_items max lim items m path declared body : fst (list_request max lim items m path declared body) =
  if is_post m && path_matches (match_at match_new (Static (bs "submit"))) path && negb (N.ltb lim (match declared with Some n => n | None => 0%N end)) && Utf8.valid_utf8 body && starts_with (bs "message=") body
  then items ++ [skipn 8 body] else items.
Proof.
  unfold list_request. destruct (is_get m && _) eqn:E1; [destruct m; try discriminate; reflexivity|].
  destruct (is_post m && _) eqn:E2.
  - destruct (N.ltb lim _); cbn [negb andb]; [reflexivity|]. destruct (Utf8.valid_utf8 body); cbn [negb andb]; [|reflexivity]. destruct (starts_with (bs "message=") body); reflexivity.
  - cbn [andb]. destruct (path_matches (match_at (match_at match_new (Static (bs "read"))) IntParam) path); [|reflexivity]. destruct (parse_uint max (skipn 6 path)); [|reflexivity]. cbn [list_handle]. now destruct (_ <? _)%N.
Qed.
Lemma run_app max lim rs : forall items rs', fst (list_run max lim items (rs ++ rs')) = fst (list_run max lim (fst (list_run max lim items rs)) rs').
Proof.
  induction rs as [|[[[m path] declared] body] rs IH]; intros items rs'; [reflexivity|]. cbn [app list_run]. destruct (list_request max lim items m path declared body) as [items1 a].
  specialize (IH items1 rs'). destruct (list_run max lim items1 (rs ++ rs')), (list_run max lim items1 rs). cbn [fst] in *. exact IH.
Qed.
Lemma read_all max lim l m n declared body : (n <= max)%N -> (n <= 2 ^ 31 - 1)%N -> list_request max lim l m (bs "/read/" ++ dec n) declared body = (l, ItemsPage l).
Proof.
  intros Hn Hi. assert (path_matches (match_at match_new (Static (bs "submit"))) (bs "/read/" ++ dec n) = false) as E1.
    { destruct (path_matches _ _) eqn:E; [|reflexivity]. apply submit_path in E. discriminate. }
    unfold list_request. rewrite E1, !andb_false_r.
    assert (path_matches (match_at (match_at match_new (Static (bs "read"))) IntParam) (bs "/read/" ++ dec n) = true) as ->.
    { apply read_path. exists (dec n). split; [reflexivity|]. exists [], (dec n). split; [reflexivity|]. split; [auto|]. split; [apply dec_nonempty|]. split; [apply dec_digits|].
      change (str_eqb [] (bs "-")) with false. cbv zeta iota. pose proof (parse_dec n n (N.le_refl n)) as P. apply parse_uint_spec in P as (ds & Hds & Hne & Hd & Hv & _).
      assert (ds = dec n) as -> by (destruct Hds as [Hds|Hds]; [congruence|]; pose proof (dec_digits n) as D; rewrite Hds in D; inversion D as [|? ? D1]; vm_compute in D1; intuition congruence).
      rewrite <- Hv. lia. }
    change (skipn 6 (bs "/read/" ++ dec n)) with (dec n). rewrite parse_dec by exact Hn. cbn [list_handle skipn]. now destruct (_ <? _)%N.
Qed.
(** After every history of requests the list holds the posted items in order, and a page with the items asked for
    then shows all of them. *)
Theorem C68_items_in_order : forall max lim rs l, posts lim rs l -> fst (list_run max lim [] rs) = l /\
  forall m n declared body, (n <= max)%N -> (n <= 2 ^ 31 - 1)%N -> list_request max lim l m (bs "/read/" ++ dec n) declared body = (l, ItemsPage l).
Proof.
  intros max lim rs l H. split.
  - induction H as [|rs l t declared H IH Hv Hd|rs l m path declared body H IH Hn]; [reflexivity|..]; rewrite run_app, IH; cbn [list_run].
    + destruct (list_request max lim l Post (bs "/submit") declared (bs "message=" ++ t)) as [i a] eqn:E. cbn [fst]. apply (f_equal fst) in E. rewrite request_items in E. cbn [fst] in E. rewrite <- E, (proj2 (valid_utf8_iff _) Hv).
      assert (starts_with (bs "message=") (bs "message=" ++ t) = true) as -> by (apply starts_with_spec; eauto).
      rewrite <- too_long_iff in Hd. apply Bool.not_true_iff_false in Hd. rewrite Hd. reflexivity.
    + destruct (list_request max lim l m path declared body) as [i a] eqn:E. cbn [fst]. apply (f_equal fst) in E. rewrite request_items in E. cbn [fst] in E. rewrite <- E.
      destruct (is_post m) eqn:Ep; [|reflexivity]. destruct (path_matches _ path) eqn:Eq; [|reflexivity].
      destruct (N.ltb lim _) eqn:El; [reflexivity|]. assert (~ too_long lim declared) as Hl by (rewrite <- too_long_iff; congruence).
      destruct (Utf8.valid_utf8 body) eqn:Eu; [|reflexivity].
      destruct (starts_with (bs "message=") body) eqn:Es; [|reflexivity]. exfalso. apply Hn. apply submit_path in Eq. apply starts_with_spec in Es. apply valid_utf8_iff in Eu. split; [now destruct m|auto].
  - intros m n declared body Hn Hi. now apply read_all.
Qed.
Print Assumptions C68_items_in_order.
Example C68_example : posts 99 [(Post, bs "/submit", Some 11%N, bs "message=tea"); (Get, bs "/read/1", None, []); (Post, bs "/submit", None, bs "oops"); (Post, bs "/submit", Some 100%N, bs "message=x"); (Post, bs "/submit", None, bs "message=milk")] [bs "tea"; bs "milk"] /\
  snd (list_run (2 ^ 32 - 1) 99 [] [(Post, bs "/submit", Some 11%N, bs "message=tea"); (Post, bs "/submit", None, bs "oops"); (Post, bs "/submit", Some 100%N, bs "message=x"); (Post, bs "/submit", None, bs "message=milk"); (Get, bs "/read/1", None, [])])
  = [AddedPage; BadRequest; HandlerPanic; AddedPage; ItemsPage [bs "tea"; bs "milk"]].
Proof.
  split; [|vm_compute; reflexivity].
  apply (posts_item 99 [(Post, bs "/submit", Some 11%N, bs "message=tea"); (Get, bs "/read/1", None, []); (Post, bs "/submit", None, bs "oops"); (Post, bs "/submit", Some 100%N, bs "message=x")] [bs "tea"] (bs "milk") None); [|apply valid_utf8_iff; vm_compute; reflexivity|intros (n & [=] & _)].
  apply (posts_other 99 [(Post, bs "/submit", Some 11%N, bs "message=tea"); (Get, bs "/read/1", None, []); (Post, bs "/submit", None, bs "oops")] [bs "tea"] Post); [|intros (_ & _ & H & _); apply H; exists 100%N; split; [reflexivity|lia]].
  apply (posts_other 99 [(Post, bs "/submit", Some 11%N, bs "message=tea"); (Get, bs "/read/1", None, [])] [bs "tea"] Post); [|intros (_ & _ & _ & _ & t & [=])].
  apply (posts_other 99 [(Post, bs "/submit", Some 11%N, bs "message=tea")] [bs "tea"] Get); [|intros ([=] & _)].
  apply (posts_item 99 [] [] (bs "tea") (Some 11%N)); [constructor|apply valid_utf8_iff; vm_compute; reflexivity|intros (n & [= <-] & H); lia].
Qed.

(* ------------------------------------------------------------------ *)
(** ** C78. Exactly these requests make a handler panic, so that the client gets no answer: a negative number of
    items, a posted body that is not UTF-8, and a post that declares more than can be allocated. *)
Theorem C78_panics_exactly_partial : forall max lim items m path declared body, (2 ^ 31 - 1 <= max)%N ->
  (snd (list_request max lim items m path declared body) = HandlerPanic <->
   (m = Post /\ path = bs "/submit" /\ (too_long lim declared \/ ~ is_utf8 body)) \/ (exists s, path = bs "/read/-" ++ s /\ i32_literal (bs "-" ++ s))).
Proof.
  intros max lim items m path declared body Hmax. unfold list_request.
  destruct (path_matches (match_at match_new (Static (bs "submit"))) path) eqn:Es.
  - apply submit_path in Es as ->. assert (forall s, bs "/submit" <> bs "/read/-" ++ s) as Hs by discriminate.
    destruct m; cbn [is_get is_post andb].
    + split; [discriminate|]. intros [([=] & _)|(s & E & _)]. now apply Hs in E.
    + destruct (N.ltb lim _) eqn:El; [apply too_long_iff in El; split; auto 6|]. assert (~ too_long lim declared) as Hl by (rewrite <- too_long_iff; congruence).
      destruct (Utf8.valid_utf8 body) eqn:Eu; cbn [negb].
      * apply valid_utf8_iff in Eu. split.
        -- destruct (starts_with (bs "message=") body); discriminate.
        -- intros [(_ & _ & [Hu|Hu])|(s & E & _)]; [contradiction|contradiction|]. now apply Hs in E.
      * assert (~ is_utf8 body) by (intros Hu; apply valid_utf8_iff in Hu; congruence). split; auto 6.
    + split; [intros X; vm_compute in X; discriminate|]. intros [([=] & _)|(s & E & _)]. now apply Hs in E.
    + split; [intros X; vm_compute in X; discriminate|]. intros [([=] & _)|(s & E & _)]. now apply Hs in E.
  - rewrite !andb_false_r. assert (path <> bs "/submit") as Hp by (intros E; apply submit_path in E; congruence).
    destruct (path_matches (match_at (match_at match_new (Static (bs "read"))) IntParam) path) eqn:Er.
    + apply read_path in Er as (s & -> & Hs). change (skipn 6 (bs "/read/" ++ s)) with s.
      destruct (parse_uint max s) as [n|] eqn:Ep.
      * split; [cbn [list_handle]; destruct (_ <? _)%N; discriminate|]. intros [(_ & E & _)|(t & E & Ht)]; [congruence|]. exfalso.
        apply (app_inv_head (bs "/read/") s (x2d :: t)) in E. subst s. discriminate Ep.
      * split; [|reflexivity]. intros _. right. destruct Hs as (sign & ds & -> & Hsg & Hne & Hd & Hv). cbv zeta in Hv.
        destruct Hsg as [->|[->| ->]].
        -- exfalso. assert (parse_uint max ds = Some (digits_value ds)) as P; [|cbn [app] in Ep; congruence]. apply parse_uint_spec. exists ds. change (str_eqb [] (bs "-")) with false in Hv. cbv iota in Hv. repeat split; auto; lia.
        -- exfalso. assert (parse_uint max (bs "+" ++ ds) = Some (digits_value ds)) as P; [|congruence]. apply parse_uint_spec. exists ds. change (str_eqb (bs "+") (bs "-")) with false in Hv. cbv iota in Hv.
           repeat split; auto; lia.
        -- exists ds. split; [reflexivity|]. exists (bs "-"), ds. auto 10.
    + split; [discriminate|]. intros [(_ & E & _)|(s & -> & Hs)]; [congruence|]. exfalso.
      assert (path_matches (match_at (match_at match_new (Static (bs "read"))) IntParam) (bs "/read/-" ++ s) = true); [|congruence]. apply read_path. exists (bs "-" ++ s). split; [reflexivity|exact Hs].
Qed.
Print Assumptions C78_panics_exactly_partial.
Theorem C78_never_panics_refuted : forall max lim items m declared body, snd (list_request max lim items m (bs "/read/-5") declared body) = HandlerPanic.
Proof. intros max lim items m declared body. destruct m; vm_compute; reflexivity. Qed.
Print Assumptions C78_never_panics_refuted.
Example C78_example : i32_literal (bs "-5") /\ snd (list_request (2 ^ 32 - 1) 99 [bs "x"] Post (bs "/submit") (Some 2%N) [x6d; xff]) = HandlerPanic /\
  snd (list_request (2 ^ 32 - 1) 99 [bs "x"] Post (bs "/submit") (Some 100%N) (bs "message=x")) = HandlerPanic /\ too_long 99 (Some 100%N).
Proof.
  split; [|split; [vm_compute; reflexivity|split; [vm_compute; reflexivity|exists 100%N; split; [reflexivity|lia]]]]. exists (bs "-"), (bs "5"). split; [reflexivity|]. split; [auto|]. split; [discriminate|]. split; [|vm_compute; intuition congruence].
  constructor; [|constructor]. unfold is_digit. vm_compute. split; discriminate.
Qed.
