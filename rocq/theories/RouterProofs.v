From Verif Require Import Base HMap Num Utf8 Io IoProofs HttpModel HttpSpec Httparse HttpProofs HttpProofs2 HttpProofs3 HttpProofs4 HttpLemmas HttpLemmas2 RouterModel UpgradeProofs.
Ltac Zify.zify_post_hook ::= Z.div_mod_to_equations.

(** ** Integer segments *)
(** Specification: an i32 literal. *)
Definition i32_literal (s : str) : Prop :=
  exists sign ds, s = sign ++ ds /\ (sign = [] \/ sign = bs "+" \/ sign = bs "-") /\ ds <> [] /\ Forall is_digit ds /\
    (let v := Z.of_N (digits_value ds) in
     let n := if str_eqb sign (bs "-") then (- v)%Z else v in (- 2 ^ 31 <= n <= 2 ^ 31 - 1)%Z).
Lemma digit_not_sign d ds : Forall is_digit (d :: ds) -> d <> x2d /\ d <> x2b.
Proof. intros H. inversion H as [|? ? Hd]; subst. unfold is_digit in Hd. split; intros ->; vm_compute in Hd; intuition congruence. Qed.
Lemma parse_i32_spec s : (exists v, parse_i32 s = Some v) <-> i32_literal s.
Proof.
  unfold parse_i32, i32_literal. split.
  - intros (v & H). destruct s as [|c s]; [discriminate|].
    destruct (byte_eqb c x2d) eqn:E1.
    + apply byte_eqb_eq in E1 as ->. destruct s as [|d s]; [discriminate|].
      destruct (parse_loop 2147483648 0 (d :: s)) as [n|] eqn:E; [|discriminate]. apply parse_loop_spec in E as (Hd & Hv & Hle).
      exists (bs "-"), (d :: s). split; [reflexivity|]. split; [auto|]. split; [discriminate|]. split; [exact Hd|].
      cbn zeta. change (str_eqb (bs "-") (bs "-")) with true. cbv iota. unfold digits_value. rewrite <- Hv.
      specialize (Hle ltac:(discriminate)). lia.
    + destruct (byte_eqb c x2b) eqn:E2.
      * apply byte_eqb_eq in E2 as ->. destruct s as [|d s]; [discriminate|].
        destruct (parse_loop 2147483647 0 (d :: s)) as [n|] eqn:E; [|discriminate]. apply parse_loop_spec in E as (Hd & Hv & Hle).
        exists (bs "+"), (d :: s). split; [reflexivity|]. split; [auto|]. split; [discriminate|]. split; [exact Hd|].
        cbn zeta. change (str_eqb (bs "+") (bs "-")) with false. cbv iota. unfold digits_value. rewrite <- Hv.
        specialize (Hle ltac:(discriminate)). lia.
      * destruct (parse_loop 2147483647 0 (c :: s)) as [n|] eqn:E; [|discriminate]. apply parse_loop_spec in E as (Hd & Hv & Hle).
        exists [], (c :: s). split; [reflexivity|]. split; [auto|]. split; [discriminate|]. split; [exact Hd|].
        cbn zeta. change (str_eqb [] (bs "-")) with false. cbv iota. unfold digits_value. rewrite <- Hv.
        specialize (Hle ltac:(discriminate)). lia.
  - intros (sign & ds & -> & Hsign & Hne & Hd & Hr). cbn zeta in Hr. destruct ds as [|d ds]; [congruence|].
    destruct Hsign as [-> | [-> | ->]]; cbn [app].
    + change (str_eqb [] (bs "-")) with false in Hr. cbv iota in Hr. destruct (digit_not_sign d ds Hd) as [H1 H2].
      apply byte_eqb_neq in H1. apply byte_eqb_neq in H2. rewrite H1, H2.
      assert (parse_loop 2147483647 0 (d :: ds) = Some (digits_value (d :: ds))) as ->; [|eexists; reflexivity].
      apply parse_loop_spec. split; [exact Hd|]. split; [reflexivity|]. intros _. lia.
    + change (str_eqb (bs "+") (bs "-")) with false in Hr. cbv iota in Hr. change (bs "+" ++ d :: ds) with (x2b :: d :: ds).
      change (byte_eqb x2b x2d) with false. change (byte_eqb x2b x2b) with true. cbv iota.
      assert (parse_loop 2147483647 0 (d :: ds) = Some (digits_value (d :: ds))) as ->; [|eexists; reflexivity].
      apply parse_loop_spec. split; [exact Hd|]. split; [reflexivity|]. intros _. lia.
    + change (str_eqb (bs "-") (bs "-")) with true in Hr. cbv iota in Hr. change (bs "-" ++ d :: ds) with (x2d :: d :: ds).
      change (byte_eqb x2d x2d) with true. cbv iota.
      assert (parse_loop 2147483648 0 (d :: ds) = Some (digits_value (d :: ds))) as ->; [|eexists; reflexivity].
      apply parse_loop_spec. split; [exact Hd|]. split; [reflexivity|]. intros _. lia.
Qed.

(** ** Matching *)
(** Specification: which path segments a segment matcher accepts. *)
Definition segment_accepts (e : segment) (a : str) : Prop :=
  match e with Static p => a = p | Param => True | IntParam => i32_literal a end.
Lemma match_loop_spec m segs : match_loop m segs = true <-> Forall2 segment_accepts m segs.
Proof.
  revert segs. induction m as [|e m IH]; intros segs; cbn [match_loop].
  - destruct segs; split; try discriminate; try (intros _; constructor); auto. intros H. inversion H.
  - destruct segs as [|a segs]; [split; [discriminate|]; intros H; inversion H|].
    destruct e as [p| |]; cbn [segment_accepts].
    + destruct (str_eqb p a) eqn:E.
      * apply str_eqb_eq in E as ->. rewrite IH. split; [intros; constructor; cbn; auto|]. intros H. now inversion H.
      * split; [discriminate|]. intros H. inversion H as [|? ? ? ? H1]; subst. cbn in H1. subst. rewrite str_eqb_refl in E. discriminate.
    + rewrite IH. split; [intros; constructor; cbn; auto|]. intros H. now inversion H.
    + destruct (parse_i32 a) as [v|] eqn:E.
      * rewrite IH. split; [intros; constructor; cbn; auto; apply parse_i32_spec; eauto|]. intros H. now inversion H.
      * split; [discriminate|]. intros H. inversion H as [|? ? ? ? H1]; subst. cbn in H1. apply parse_i32_spec in H1 as (v & H1). congruence.
Qed.
Lemma does_match_spec {U} (ev : env U) (segs : list segment) (u : U) :
  does_match ev (fold_left match_at segs match_new) u = true <->
  exists parts, url_segments ev u = Some parts /\ Forall2 segment_accepts segs parts.
Proof.
  assert (forall m, fold_left match_at segs m = m ++ segs) as E.
  { induction segs as [|x segs IH]; intros m; cbn [fold_left]; [now rewrite app_nil_r|]. rewrite IH. unfold match_at. now rewrite <- app_assoc. }
  rewrite E. unfold match_new. cbn [app]. unfold does_match. destruct (url_segments ev u) as [parts|].
  - rewrite match_loop_spec. split; [eauto|]. intros (? & [= <-] & H). exact H.
  - split; [discriminate|]. intros (? & [=] & _).
Qed.

(** ** Routing *)
Lemma respond_spec {M H U S} (run_m : M -> request U -> bool) (rs : list (route M H)) req (st : S) :
  (exists r1 x r2, rs = r1 ++ x :: r2 /\ Forall (fun y => run_m (rt_matcher y) req = false) r1 /\
     run_m (rt_matcher x) req = true /\
     respond run_m (fold_left router_route rs router_new) req st = [(rt_handler x, req, st)]) \/
  (Forall (fun y => run_m (rt_matcher y) req = false) rs /\
     respond run_m (fold_left router_route rs router_new) req st = []).
Proof.
  assert (forall r, fold_left router_route rs r = r ++ rs) as E.
  { induction rs as [|x rs IH]; intros r; cbn [fold_left]; [now rewrite app_nil_r|]. rewrite IH. unfold router_route. now rewrite <- app_assoc. }
  rewrite E. unfold router_new. cbn [app]. clear E. induction rs as [|x rs IH]; cbn [respond].
  - right. auto.
  - destruct (run_m (rt_matcher x) req) eqn:Ex.
    + left. exists [], x, rs. repeat split; auto.
    + destruct IH as [(r1 & y & r2 & -> & F & Hy & Er)|[F Er]].
      * left. exists (x :: r1), y, r2. repeat split; auto.
      * right. auto.
Qed.

(** Functions found at their own address, possibly merged with functions of the same behaviour. *)
Definition image_ok {M H} (im : image M H) (same_m : M -> M -> Prop) (same_h : H -> H -> Prop) : Prop :=
  (forall f, exists g, m_at im (m_addr im f) = Some g /\ same_m f g) /\
  (forall f, exists g, h_at im (h_addr im f) = Some g /\ same_h f g).
Lemma ints_round_trip {M H} (im : image M H) same_m same_h (r : router M H) : image_ok im same_m same_h ->
  exists r', from_ints im (as_ints im r) = Some r' /\
    Forall2 (fun x y => same_m (rt_matcher x) (rt_matcher y) /\ same_h (rt_handler x) (rt_handler y)) r r'.
Proof.
  intros [Hm Hh]. induction r as [|x r (r' & E & F)]; cbn [as_ints map from_ints]; [eexists; split; [reflexivity|constructor]|].
  destruct (Hm (rt_matcher x)) as (fm & -> & Sm). destruct (Hh (rt_handler x)) as (fh & -> & Sh).
  fold (as_ints im r). rewrite E. eexists. split; [reflexivity|]. constructor; auto.
Qed.
Lemma ints_exact {M H} (im : image M H) (r : router M H) : image_ok im eq eq -> from_ints im (as_ints im r) = Some r.
Proof.
  intros H0. destruct (ints_round_trip im eq eq r H0) as (r' & -> & F). f_equal.
  induction F as [|[a b] [c d] r r' [E1 E2] F IH]; [reflexivity|]. cbn in *. now subst.
Qed.

(** ** Connections *)
Lemma serve_conn_spec {M H U S} (ev : env U) (im : image M H) run_m sz (r : router M H) s (st : S) budget :
  image_ok im eq eq ->
  let out := serve_conn ev im run_m sz (as_ints im r) s st budget in
  (forall req, request_parse ev s = Ok (Some req) -> out = Handled (respond run_m r req st)) /\
  (request_parse ev s = Ok None -> positive sz -> out = Answered (written text_400 budget)) /\
  (forall e, request_parse ev s = Err e -> out = Crashed).
Proof.
  intros Him out. unfold out, serve_conn. rewrite (ints_exact im r Him). split; [|split].
  - now intros req ->.
  - intros -> Hsz. f_equal. pose proof (encode_400 sz Hsz) as E. destruct budget as [n|]; cbn [written].
    + now rewrite (encode_failing sz err_400 n _ _ E).
    + now rewrite E.
  - now intros e ->.
Qed.
(** A request some matcher accepts is handled; a connection closed early is answered 400. *)
Lemma answered_when {M H U S} (ev : env U) (im : image M H) run_m sz (r : router M H) s (st : S) budget :
  image_ok im eq eq -> positive sz ->
  (forall req, request_parse ev s = Ok (Some req) -> Exists (fun x => run_m (rt_matcher x) req = true) r ->
     exists x, In x r /\ run_m (rt_matcher x) req = true /\
       serve_conn ev im run_m sz (as_ints im r) s st budget = Handled [(rt_handler x, req, st)]) /\
  (forall bytes, delivers true s bytes [] -> no_head bytes ->
     serve_conn ev im run_m sz (as_ints im r) s st budget = Answered (written text_400 budget)).
Proof.
  intros Him Hsz. destruct (serve_conn_spec ev im run_m sz r s st budget Him) as (H1 & H2 & _). cbn zeta in *. split.
  - intros req E Hex. rewrite (H1 req E).
    destruct (respond_spec run_m r req st) as [(r1 & x & r2 & Er & _ & Hx & Hr)|[F _]].
    + exists x. split; [rewrite Er; apply in_or_app; right; now left|]. split; [exact Hx|].
      assert (fold_left router_route r router_new = r) as Ef.
      { assert (forall q, fold_left router_route r q = q ++ r) as G.
        { clear. induction r as [|y r IH]; intros q; cbn [fold_left]; [now rewrite app_nil_r|]. rewrite IH. unfold router_route. now rewrite <- app_assoc. }
        now rewrite G. }
      rewrite Ef in Hr. now rewrite Hr.
    + apply Exists_exists in Hex as (y & Hy & Ey). rewrite Forall_forall in F. apply F in Hy. congruence.
  - intros bytes Hd Hn. apply H2; auto. now apply (request_parse_eof ev s bytes).
Qed.

(** A request nobody matches, and a malformed request, get no response at all. *)
Definition no_image : image bool unit := Image bool unit (fun b : bool => if b then 1%N else 0%N) (fun _ : unit => 0%N) (fun n : N => Some (N.eqb n 1)) (fun _ : N => Some tt).
Lemma unanswered :
  (forall budget, serve_conn (demo_env (fun m => m)) no_image (fun (b : bool) (_ : request str) => b) sz1 (as_ints no_image [Route false tt])
     [Data (request_head (bs "GET") (bs "/") [plain_field (bs "Host", bs "h")])] tt budget = Handled []) /\
  (forall budget, serve_conn (demo_env (fun m => m)) no_image (fun (b : bool) (_ : request str) => b) sz1 (as_ints no_image [Route true tt])
     [Data (request_head (bs "GET") (bs "/") [])] tt budget = Crashed) /\
  run_conn (demo_env (fun m => m)) no_image (fun (b : bool) (_ : request str) => b) (as_ints no_image [Route true tt]) [Data (bs "GET")] tt = Silent.
Proof.
  split; [|split].
  - intros budget. vm_compute. reflexivity.
  - intros budget. vm_compute. reflexivity.
  - vm_compute. reflexivity.
Qed.
Lemma no_image_ok : image_ok no_image eq eq.
Proof. split; [intros []; eexists; split; reflexivity|intros []; eexists; split; reflexivity]. Qed.

(** What one client sends has no influence on how another connection is handled. *)
Lemma connections_independent {M H U S} (ev : env U) (im : image M H) run_m sz (r : router M H) (st : S) before after s budget :
  serve_all ev im run_m sz r st (before ++ Some (s, budget) :: after) =
  serve_all ev im run_m sz r st before ++ [serve_conn ev im run_m sz (as_ints im r) s st budget] ++ serve_all ev im run_m sz r st after.
Proof. unfold serve_all. now rewrite flat_map_app. Qed.
