(** Routing: C44-C48. *)
From Verif Require Import Base HMap Num Io IoProofs HttpModel HttpSpec Httparse HttpProofs3 HttpLemmas HttpLemmas2 RouterModel RouterProofs UpgradeProofs.

(** ** C44. The routes are added to a new router in order; the result is the list of handler calls. *)
Theorem C44_first_match_once : forall M H U S (run_m : M -> request U -> bool) (rs : list (route M H)) req (st : S),
  (exists r1 x r2, rs = r1 ++ x :: r2 /\ Forall (fun y => run_m (rt_matcher y) req = false) r1 /\
     run_m (rt_matcher x) req = true /\
     respond run_m (fold_left router_route rs router_new) req st = [(rt_handler x, req, st)]) \/
  (Forall (fun y => run_m (rt_matcher y) req = false) rs /\
     respond run_m (fold_left router_route rs router_new) req st = []).
Proof. intros M H U S. exact respond_spec. Qed.
Print Assumptions C44_first_match_once.
Example C44_example : respond (fun (n : nat) (r : request str) => Nat.leb 2 n)
  (fold_left router_route [Route 1 (bs "a"); Route 2 (bs "b"); Route 3 (bs "c")] router_new) post_request tt
  = [(bs "b", post_request, tt)].
Proof. reflexivity. Qed.

(** So it is for every connection of [serve_router] ([serve_conn]) and of [Router::run] ([run_conn]) on which a request
    arrives: the same calls, each with that request and the state, whatever the transport does. *)
Definition dispatched {M H U S} (run_m : M -> request U -> bool) (rs : list (route M H)) (req : request U) (st : S)
  (calls : list (H * request U * S)) : Prop :=
  (exists r1 x r2, rs = r1 ++ x :: r2 /\ Forall (fun y => run_m (rt_matcher y) req = false) r1 /\ run_m (rt_matcher x) req = true /\
     calls = [(rt_handler x, req, st)]) \/
  (Forall (fun y => run_m (rt_matcher y) req = false) rs /\ calls = []).
Theorem C44_on_connections : forall M H U S (ev : env U) (im : image M H) run_m sz (rs : list (route M H)) s (st : S) budget req,
  image_ok im eq eq -> request_parse ev s = Ok (Some req) ->
  exists calls, dispatched run_m rs req st calls /\
    serve_conn ev im run_m sz (as_ints im (fold_left router_route rs router_new)) s st budget = Handled calls /\
    run_conn ev im run_m (as_ints im (fold_left router_route rs router_new)) s st = Handled calls.
Proof.
  intros M H U S ev im run_m sz rs s st budget req Him E. exists (respond run_m (fold_left router_route rs router_new) req st). split; [|split].
  - destruct (respond_spec run_m rs req st) as [(r1 & x & r2 & Er & F & Hx & ->)|[F ->]]; [left; exists r1, x, r2; auto|right; auto].
  - unfold serve_conn. now rewrite (ints_exact im _ Him), E.
  - unfold run_conn. now rewrite E, (ints_exact im _ Him).
Qed.
Print Assumptions C44_on_connections.

(** ** C45. [image_ok im same_m same_h]: the receiving process runs the same program image, so that at
    the address of a function there is a function with the same behaviour. *)
Theorem C45_ship_router : forall M H (im : image M H) same_m same_h (r : router M H), image_ok im same_m same_h ->
  exists r', from_ints im (as_ints im r) = Some r' /\
    Forall2 (fun x y => same_m (rt_matcher x) (rt_matcher y) /\ same_h (rt_handler x) (rt_handler y)) r r'.
Proof. intros M H. exact ints_round_trip. Qed.
Print Assumptions C45_ship_router.
Theorem C45_ship_router_exact : forall M H (im : image M H) (r : router M H), image_ok im eq eq ->
  from_ints im (as_ints im r) = Some r.
Proof. intros M H. exact ints_exact. Qed.
Print Assumptions C45_ship_router_exact.
Example C45_example : image_ok no_image eq eq /\ from_ints no_image (as_ints no_image [Route true tt; Route false tt]) = Some [Route true tt; Route false tt].
Proof. split; [exact no_image_ok|reflexivity]. Qed.

(** ** C46 *)
Theorem C46_positional : forall U (ev : env U) (segs : list segment) (u : U),
  does_match ev (fold_left match_at segs match_new) u = true <->
  exists parts, url_segments ev u = Some parts /\
    Forall2 (fun e a => match e with Static p => a = p | Param => True | IntParam => i32_literal a end) segs parts.
Proof. intros U. exact does_match_spec. Qed.
Print Assumptions C46_positional.
Example C46_example :
  does_match (demo_env (fun m => m)) (fold_left match_at [Static (bs "home"); Param; IntParam] match_new) (bs "http://h/home/x/12") = true /\
  does_match (demo_env (fun m => m)) (fold_left match_at [Static (bs "home"); Param; IntParam] match_new) (bs "http://h/home/x/y") = false.
Proof. split; vm_compute; reflexivity. Qed.

(** ** C47. [any_integer] as the whole matcher, against a path of one segment. *)
Theorem C47_integer_segments : forall U (ev : env U) (u : U) s, url_segments ev u = Some [s] ->
  (does_match ev (match_at match_new IntParam) u = true <->
   exists sign ds, s = sign ++ ds /\ (sign = [] \/ sign = bs "+" \/ sign = bs "-") /\ ds <> [] /\ Forall is_digit ds /\
    (let v := Z.of_N (digits_value ds) in
     let n := if str_eqb sign (bs "-") then (- v)%Z else v in (- 2 ^ 31 <= n <= 2 ^ 31 - 1)%Z)).
Proof.
  intros U ev u s E. rewrite (does_match_spec ev [IntParam] u). rewrite E. split.
  - intros (parts & [= <-] & H). inversion H as [|? ? ? ? H1]; subst. exact H1.
  - intros H. exists [s]. split; [reflexivity|]. constructor; [exact H|constructor].
Qed.
Print Assumptions C47_integer_segments.
Example C47_example : (exists v, parse_i32 (bs "-2147483648") = Some v) /\ parse_i32 (bs "2147483648") = None /\
  parse_i32 (bs "1-") = None /\ parse_i32 (bs "-") = None.
Proof. split; [eexists|]; repeat split; vm_compute; reflexivity. Qed.

(** ** C48: an unmatched request or a malformed one is never answered *)
Theorem C48_answered_refuted :
  (forall budget, serve_conn (demo_env (fun m => m)) no_image (fun (b : bool) (_ : request str) => b) sz1 (as_ints no_image [Route false tt])
     [Data (request_head (bs "GET") (bs "/") [plain_field (bs "Host", bs "h")])] tt budget = Handled []) /\
  (forall budget, serve_conn (demo_env (fun m => m)) no_image (fun (b : bool) (_ : request str) => b) sz1 (as_ints no_image [Route true tt])
     [Data (request_head (bs "GET") (bs "/") [])] tt budget = Crashed) /\
  run_conn (demo_env (fun m => m)) no_image (fun (b : bool) (_ : request str) => b) (as_ints no_image [Route true tt]) [Data (bs "GET")] tt = Silent.
Proof. exact unanswered. Qed.
Print Assumptions C48_answered_refuted.
(** What holds: a parsed request that some matcher accepts is handled once, and a connection that ends
    before a complete head is answered with a 400. *)
Theorem C48_answered_partial : forall M H U S (ev : env U) (im : image M H) run_m sz (r : router M H) s (st : S) budget,
  image_ok im eq eq -> positive sz ->
  (forall req, request_parse ev s = Ok (Some req) -> Exists (fun x => run_m (rt_matcher x) req = true) r ->
     exists x, In x r /\ run_m (rt_matcher x) req = true /\
       serve_conn ev im run_m sz (as_ints im r) s st budget = Handled [(rt_handler x, req, st)]) /\
  (forall bytes, delivers true s bytes [] -> no_head bytes ->
     serve_conn ev im run_m sz (as_ints im r) s st budget = Answered (written text_400 budget)).
Proof. intros M H U S. exact answered_when. Qed.
Print Assumptions C48_answered_partial.
(** And exactly then is there no call and no answer: nobody matches, the request is malformed or the transport fails
    ([serve_router]'s process then crashes), and with [Router::run] also when the connection ends early. *)
Theorem C48_unanswered_exactly_partial : forall M H U S (ev : env U) (im : image M H) run_m sz (r : router M H) s (st : S) budget,
  image_ok im eq eq -> positive sz ->
  (serve_conn ev im run_m sz (as_ints im r) s st budget = Handled [] <->
     exists req, request_parse ev s = Ok (Some req) /\ Forall (fun x => run_m (rt_matcher x) req = false) r) /\
  (serve_conn ev im run_m sz (as_ints im r) s st budget = Crashed <-> exists e, request_parse ev s = Err e) /\
  (forall text, serve_conn ev im run_m sz (as_ints im r) s st budget = Answered text <->
     request_parse ev s = Ok None /\ text = written text_400 budget) /\
  serve_conn ev im run_m sz (as_ints im r) s st budget <> Silent /\ serve_conn ev im run_m sz (as_ints im r) s st budget <> Stuck /\
  (run_conn ev im run_m (as_ints im r) s st = Silent <-> request_parse ev s = Ok None \/ exists e, request_parse ev s = Err e) /\
  (forall calls, run_conn ev im run_m (as_ints im r) s st = Handled calls <-> serve_conn ev im run_m sz (as_ints im r) s st budget = Handled calls) /\
  run_conn ev im run_m (as_ints im r) s st <> Crashed /\ run_conn ev im run_m (as_ints im r) s st <> Stuck.
Proof.
  intros M H U S ev im run_m sz r s st budget Him Hsz. destruct (serve_conn_spec ev im run_m sz r s st budget Him) as (H1 & H2 & H3). cbn zeta in *.
  assert (forall req, respond run_m r req st = [] <-> Forall (fun x => run_m (rt_matcher x) req = false) r) as Hr.
  { intros req. induction r as [|x r' IH]; cbn [respond]; [split; [constructor|reflexivity]|]. destruct (run_m (rt_matcher x) req) eqn:E.
    - split; [discriminate|]. intros F. inversion F; congruence.
    - rewrite IH; [split; [now constructor|intros F; now inversion F]| | |];
        destruct (serve_conn_spec ev im run_m sz r' s st budget Him) as (K1 & K2 & K3); assumption. }
  destruct (request_parse_total ev s) as [Hp Hq]. unfold run_conn. rewrite (ints_exact im r Him).
  destruct (request_parse ev s) as [[req|]|e| |]; [| | |congruence|congruence].
  - rewrite (H1 req eq_refl). split; [split|split; [split|split; [intros text; split|split; [discriminate|split; [discriminate|split; [split|split; [reflexivity|split; discriminate]]]]]]].
    + intros [= E]. exists req. split; [reflexivity|now apply Hr].
    + intros (q & [= <-] & F). f_equal. now apply Hr.
    + discriminate.
    + intros (e & He). discriminate He.
    + discriminate.
    + intros [E _]. discriminate E.
    + discriminate.
    + intros [E|[e E]]; discriminate E.
  - rewrite (H2 eq_refl Hsz). split; [split|split; [split|split; [intros text; split|split; [discriminate|split; [discriminate|split; [split|split; [split; discriminate|split; discriminate]]]]]]].
    + discriminate.
    + intros (q & E & _). discriminate E.
    + discriminate.
    + intros (e & E). discriminate E.
    + intros [= ->]. now split.
    + intros [_ ->]. reflexivity.
    + now left.
    + reflexivity.
  - rewrite (H3 e eq_refl). split; [split|split; [split|split; [intros text; split|split; [discriminate|split; [discriminate|split; [split|split; [split; discriminate|split; discriminate]]]]]]].
    + discriminate.
    + intros (q & E & _). discriminate E.
    + eauto.
    + reflexivity.
    + discriminate.
    + intros [E _]. discriminate E.
    + eauto.
    + reflexivity.
Qed.
Print Assumptions C48_unanswered_exactly_partial.

(** ** C70. [serve_all]: the outcome of every accepted connection, in order ([None]: a failed accept). *)
Theorem C70_connections_independent : forall M H U S (ev : env U) (im : image M H) run_m sz (r : router M H) (st : S) before after s budget,
  serve_all ev im run_m sz r st (before ++ Some (s, budget) :: after) =
  serve_all ev im run_m sz r st before ++ [serve_conn ev im run_m sz (as_ints im r) s st budget] ++ serve_all ev im run_m sz r st after.
Proof. intros M H U S. exact connections_independent. Qed.
Print Assumptions C70_connections_independent.
(** A crashing connection before, and one after, change nothing for the connection in the middle. *)
Example C70_example :
  serve_all (demo_env (fun m => m)) no_image (fun (b : bool) (_ : request str) => b) sz1 [Route true tt] tt
    [None; Some ([Data (request_head (bs "GET") (bs "/") [])], None);
     Some ([Data (request_head (bs "GET") (bs "/") [plain_field (bs "Host", bs "h")])], None);
     Some ([Data (bs "junk")], None)] =
  [Crashed] ++ [serve_conn (demo_env (fun m => m)) no_image (fun (b : bool) (_ : request str) => b) sz1 (as_ints no_image [Route true tt])
     [Data (request_head (bs "GET") (bs "/") [plain_field (bs "Host", bs "h")])] tt None] ++ [Answered text_400].
Proof. vm_compute. reflexivity. Qed.
