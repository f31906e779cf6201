(** * C119: sending a request again *)
From Verif Require Import Base HMap Num Utf8 Io IoProofs HttpModel HttpSpec Httparse HttpProofs HttpProofs2 HttpProofs3 HttpProofs4 HttpLemmas HttpLemmas2 PropBody SendModel.
From Coq Require Import Lia.

(** ** Specification *)

(** The body has [content] to give: what is behind it delivers it, up to the announced length if there is one, and then
    ends (or at least the announced length is there). *)
Definition body_holds (b : hbody) (content : str) : Prop :=
  exists rem tail, rep true (b_reader b) rem tail /\ 0 < br_cap (b_reader b) /\
    match b_length b with
    | None => tail = [] /\ content = rem
    | Some len => (b_read b <= len)%N /\ content = firstn (N.to_nat (len - b_read b)) rem /\
                  (tail = [] \/ (len - b_read b <= N.of_nat (length rem))%N)
    end.

(** ** Proofs *)

Lemma holds_size_after b r d : br_size (b_reader (body_after b r d)) = br_size r.
Proof. reflexivity. Qed.

Lemma body_step n b content : body_holds b content -> 0 < n ->
  (content = [] /\ exists b', body_read br_read n b = (Ok [], b') /\ body_holds b' []) \/
  (exists b', body_read br_read n b = (Err EInterrupted, b') /\ body_holds b' content /\ br_size (b_reader b') < br_size (b_reader b)) \/
  (exists d b' rest, d <> [] /\ content = d ++ rest /\ body_read br_read n b = (Ok d, b') /\ body_holds b' rest /\ br_size (b_reader b') < br_size (b_reader b)).
Proof.
  intros (rem & tail & Hrep & Hcap & Hc) Hn.
  assert (body_sound b) as Hs by (unfold body_sound; destruct (b_length b); [apply Hc|exact I]).
  rewrite body_read_eq by exact Hs.
  destruct (match body_left b with Some 0%N => true | _ => false end) eqn:Hz.
  { left. unfold body_left in Hz. destruct (b_length b) as [len|] eqn:El; [|discriminate]. destruct Hc as (Hle & -> & Ht).
    destruct (len - b_read b)%N eqn:Ed; [|discriminate]. split; [reflexivity|]. exists b. split; [reflexivity|].
    exists rem, tail. split; [exact Hrep|]. split; [exact Hcap|]. rewrite El, Ed. auto. }
  set (req := request_size (body_left b) n).
  assert (0 < req) as Hreq.
  { unfold req, request_size. destruct (body_left b) as [[|p]|]; [discriminate|lia|lia]. }
  pose proof (br_read_any req (b_reader b)) as [_ Hany].
  destruct rem as [|c0 rem0].
  - assert (tail = [] /\ content = []) as [-> ->].
    { unfold body_left in Hz. destruct (b_length b) as [len|]; [|tauto]. destruct Hc as (Hle & -> & [->|Ht]); rewrite firstn_nil; [auto|].
      cbn [length] in Ht. destruct (len - b_read b)%N; [discriminate|lia]. }
    assert (forall r', rep true r' [] [] -> br_cap r' = br_cap (b_reader b) -> body_holds (body_after b r' []) []) as Ha.
    { intros r' Hr Hcp. exists [], []. split; [exact Hr|]. cbn [body_after b_reader b_length b_read]. split; [lia|].
      cbn [length]. destruct (b_length b) as [len|]; [|auto]. rewrite firstn_nil. split; [lia|auto]. }
    destruct (br_read_rep_eof req (b_reader b) Hrep Hreq Hcap) as [(r' & E & Hr' & Hc')|(r' & E & Hr' & Hc' & Hsize)]; rewrite E.
    + left. split; [reflexivity|]. eexists. split; [reflexivity|]. now apply Ha.
    + right. left. eexists. split; [reflexivity|]. split; [now apply Ha|]. exact Hsize.
  - set (rem := c0 :: rem0) in *.
    pose proof (br_read_rep true req (b_reader b) rem tail Hrep ltac:(discriminate) Hreq Hcap) as [Hcap' Hcase].
    destruct (br_read req (b_reader b)) as [r b1] eqn:E. cbn [fst snd] in *.
    destruct Hcase as [(k & Hk & Hkl & -> & Hr1) | (_ & -> & Hr1 & Hb0 & Hb1 & Hzz)].
    + right. right. assert (length (firstn k rem) = k) as Hlen by (rewrite firstn_length; lia).
      exists (firstn k rem), (body_after b b1 (firstn k rem)).
      exists (match b_length b with None => skipn k rem | Some len => firstn (N.to_nat (len - (b_read b + N.of_nat k))) (skipn k rem) end).
      assert (match b_length b with Some len => k <= N.to_nat (len - b_read b) | None => True end) as Hkb.
      { unfold req, request_size, body_left in Hk. destruct (b_length b); [lia|exact I]. }
      split; [intros H; rewrite H in Hlen; cbn in Hlen; lia|]. split.
      { destruct (b_length b) as [len|]; [|destruct Hc as [_ ->]; now rewrite firstn_skipn]. destruct Hc as (Hle & -> & _).
        replace (N.to_nat (len - (b_read b + N.of_nat k))) with (N.to_nat (len - b_read b) - k) by lia.
        rewrite <- firstn_add. f_equal. lia. }
      split; [reflexivity|]. split.
      * exists (skipn k rem), tail. split; [exact Hr1|]. cbn [body_after b_reader b_length b_read]. split; [lia|]. rewrite Hlen.
        destruct (b_length b) as [len|]; [|tauto]. destruct Hc as (Hle & _ & Ht). split; [lia|]. split; [reflexivity|].
        destruct Ht as [->|Ht]; [now left|right]. rewrite skipn_length. lia.
      * destruct Hany as [(d' & [= <-] & Hdl & Hsize) | (e & He & _)]; [|discriminate]. unfold br_size. cbn [body_after b_reader]. rewrite Hlen in Hsize. lia.
    + right. left. eexists. split; [reflexivity|]. split.
      * exists rem, tail. split; [exact Hr1|]. cbn [body_after b_reader b_length b_read length]. split; [lia|].
        replace (b_read b + N.of_nat 0)%N with (b_read b) by lia. exact Hc.
      * unfold br_size. cbn [body_after b_reader]. rewrite Hb0, Hb1. lia.
Qed.

(** The bytes copied are those of [drain]. *)
Lemma copy_drain fuel sz : forall i b budget ds c b',
  drain_loop fuel sz i br_read b = (ds, (c, b')) ->
  fst (copy_loop fuel sz i b budget) = fst (write_calls ds budget) /\
  fst (snd (copy_loop fuel sz i b budget)) = (if snd (write_calls ds budget) then c else Err EOther) /\
  (snd (write_calls ds budget) = true -> snd (snd (copy_loop fuel sz i b budget)) = b').
Proof.
  induction fuel as [|fuel IH]; intros i b budget ds c b'; cbn [drain_loop copy_loop]; [intros [= <- <- <-]; auto|].
  destruct (body_read br_read (sz i) b) as [[d|e| |] b1]; [|destruct e|..]; try (intros [= <- <- <-]; auto; fail); try (apply IH).
  destruct d as [|x d]; [intros [= <- <- <-]; auto|].
  destruct (drain_loop fuel sz (S i) br_read b1) as [ds' [c' b2]] eqn:E. intros [= <- <- <-]. cbn [write_calls].
  destruct budget as [n|].
  - destruct (Nat.leb (length (x :: d)) n); [|cbn; auto using Bool.diff_false_true]. 2: split; [reflexivity|split; [reflexivity|discriminate]].
    destruct (IH (S i) b1 (Some (n - length (x :: d))) ds' c' b2 E) as (H1 & H2 & H3).
    destruct (copy_loop fuel sz (S i) b1 _) as [o r], (write_calls ds' _) as [o' ok]. cbn [fst snd] in *. now subst.
  - destruct (IH (S i) b1 None ds' c' b2 E) as (H1 & H2 & H3).
    destruct (copy_loop fuel sz (S i) b1 _) as [o r], (write_calls ds' _) as [o' ok]. cbn [fst snd] in *. now subst.
Qed.

Lemma write_calls_app a b budget : write_calls (a ++ b) budget =
  match write_calls a budget with
  | (o, false) => (o, false)
  | (o, true) => let '(o', ok) := write_calls b (match budget with Some n => Some (n - length o) | None => None end) in (o ++ o', ok)
  end.
Proof.
  revert budget. induction a as [|x a IH]; intros budget; cbn [app write_calls].
  - destruct budget; cbn [length]; rewrite ?Nat.sub_0_r; now destruct (write_calls b _).
  - destruct budget as [n|].
    + destruct (Nat.leb_spec (length x) n) as [Hle|]; [|reflexivity]. rewrite IH. destruct (write_calls a (Some (n - length x))) as [o [|]]; [|reflexivity].
      rewrite app_length, Nat.sub_add_distr. destruct (write_calls b _). now rewrite app_assoc.
    + rewrite IH. destruct (write_calls a None) as [o [|]]; [|reflexivity]. destruct (write_calls b _). now rewrite app_assoc.
Qed.

Lemma copy_holds fuel sz : positive sz -> forall i b content budget, body_holds b content -> br_size (b_reader b) < fuel ->
  exists taken rest b' , copy_loop fuel sz i b budget =
    (match budget with Some n => firstn n content | None => content end,
     (match budget with Some n => if Nat.leb (length content) n then Ok tt else Err EOther | None => Ok tt end, b')) /\
    content = taken ++ rest /\ body_holds b' rest /\
    match budget with
    | Some n => if Nat.leb (length content) n then rest = [] else n < length taken
    | None => rest = []
    end.
Proof.
  intros Hsz. induction fuel as [|fuel IH]; intros i b content budget Hh Hf; [lia|]. cbn [copy_loop].
  destruct (body_step (sz i) b content Hh (Hsz i)) as [(-> & b1 & E & H1)|[(b1 & E & H1 & Hlt)|(d & b1 & rest & Hd & -> & E & H1 & Hlt)]]; rewrite E.
  - exists [], [], b1. split; [destruct budget as [[|n]|]; reflexivity|]. split; [reflexivity|]. split; [exact H1|]. destruct budget; reflexivity.
  - apply IH; [exact H1|lia].
  - destruct d as [|x d]; [congruence|]. destruct budget as [n|].
    + destruct (Nat.leb_spec (length (x :: d)) n) as [Hle|Hgt].
      * destruct (IH (S i) b1 rest (Some (n - length (x :: d))) H1 ltac:(lia)) as (taken & rest' & b' & E' & -> & H2 & H3). rewrite E'.
        exists ((x :: d) ++ taken), rest', b'. split.
        { assert (firstn n ((x :: d) ++ (taken ++ rest')) = (x :: d) ++ firstn (n - length (x :: d)) (taken ++ rest')) as ->.
          { rewrite (firstn_app n (x :: d)). now rewrite (@firstn_all2 _ n (x :: d) Hle). }
          repeat f_equal. rewrite !app_length. destruct (Nat.leb_spec (length taken + length rest') (n - length (x :: d))), (Nat.leb_spec (length (x :: d) + (length taken + length rest')) n); try reflexivity; lia. }
        split; [now rewrite app_assoc|]. split; [exact H2|].
        revert H3. rewrite !app_length. destruct (Nat.leb_spec (length taken + length rest') (n - length (x :: d))), (Nat.leb_spec (length (x :: d) + (length taken + length rest')) n); auto; lia.
      * exists (x :: d), rest, b1. rewrite firstn_app. replace (n - length (x :: d)) with 0 by lia. cbn [firstn]. rewrite app_nil_r, app_length.
        destruct (Nat.leb_spec (length (x :: d) + length rest) n); [lia|]. auto.
    + destruct (IH (S i) b1 rest None H1 ltac:(lia)) as (taken & rest' & b' & E' & -> & H2 & ->). rewrite E'.
      exists ((x :: d) ++ taken), [], b'. split; [reflexivity|]. split; [now rewrite app_assoc|auto].
Qed.

Definition head_calls {U} (ev : env U) (r : request U) : list str :=
  [method_text (rq_method r); bs " "; url_path ev (rq_url r); bs " "; bs "HTTP/1.1" ++ [x0d; x0a]] ++ map header_line (rq_headers r) ++ [[x0d; x0a]].
Lemma head_lines {U} (ev : env U) (r : request U) : concat (head_calls ev r) = request_lines ev r.
Proof.
  unfold head_calls, request_lines. cbn [app concat]. rewrite !concat_app. cbn [concat app].
  change (fun kv : str * str => fst kv ++ bs ": " ++ snd kv ++ CRLF) with header_line. rewrite flat_map_concat_map, <- !app_assoc. reflexivity.
Qed.
(** Forgetting the request left behind gives [request_write]. *)
Lemma send_is_write {U} (ev : env U) sz (r : request U) budget : fst (request_send ev sz r budget) = request_write ev sz r budget.
Proof.
  unfold request_send, request_write. fold (head_calls ev r). change (drain sz (rq_body r)) with (drain_loop (copy_fuel (rq_body r)) sz 0 br_read (rq_body r)).
  destruct (drain_loop _ sz 0 br_read (rq_body r)) as [ds [c b']] eqn:E. rewrite write_calls_app.
  destruct (write_calls (head_calls ev r) budget) as [out [|]]; [|reflexivity].
  destruct (copy_drain _ sz 0 (rq_body r) (match budget with Some n => Some (n - length out) | None => None end) ds c b' E) as (H1 & H2 & _).
  destruct (copy_loop _ _ _ _ _) as [o [c' b2]], (write_calls ds _) as [o' ok]. cbn [fst snd] in *. now subst.
Qed.

(** One attempt. *)
Lemma one_attempt {U} (ev : env U) sz (r : request U) content budget : positive sz -> body_holds (rq_body r) content ->
  exists taken rest b', request_send ev sz r budget =
    (match budget with Some n => firstn n (request_lines ev r ++ content) | None => request_lines ev r ++ content end,
     match budget with Some n => if Nat.leb (length (request_lines ev r ++ content)) n then Ok tt else Err EOther | None => Ok tt end,
     Request (rq_headers r) (rq_method r) b' (rq_url r)) /\
    content = taken ++ rest /\ body_holds b' rest /\
    match budget with
    | Some n => if Nat.ltb n (length (request_lines ev r)) then taken = []
                else if Nat.leb (length (request_lines ev r ++ content)) n then rest = [] else n < length (request_lines ev r) + length taken
    | None => rest = []
    end.
Proof.
  intros Hsz Hh. unfold request_send. fold (head_calls ev r). pose proof (head_lines ev r) as Hl.
  destruct budget as [n|].
  - rewrite write_calls_some, Hl. destruct (Nat.leb_spec (length (request_lines ev r)) n) as [Hle|Hgt].
    + rewrite firstn_all2 by exact Hle.
      destruct (copy_holds (copy_fuel (rq_body r)) sz Hsz 0 (rq_body r) content (Some (n - length (request_lines ev r))) Hh) as (taken & rest & b' & E & -> & H1 & H2); [unfold copy_fuel, br_size; lia|].
      rewrite E. exists taken, rest, b'. split.
      { assert (firstn n (request_lines ev r ++ taken ++ rest) = request_lines ev r ++ firstn (n - length (request_lines ev r)) (taken ++ rest)) as ->.
        { rewrite (firstn_app n (request_lines ev r)). now rewrite (@firstn_all2 _ n (request_lines ev r) Hle). }
        repeat f_equal. rewrite !app_length. destruct (Nat.leb_spec (length taken + length rest) (n - length (request_lines ev r))), (Nat.leb_spec (length (request_lines ev r) + (length taken + length rest)) n); try reflexivity; lia. }
      split; [reflexivity|]. split; [exact H1|]. destruct (Nat.ltb_spec n (length (request_lines ev r))); [lia|].
      revert H2. rewrite !app_length. destruct (Nat.leb_spec (length taken + length rest) (n - length (request_lines ev r))), (Nat.leb_spec (length (request_lines ev r) + (length taken + length rest)) n); auto; lia.
    + exists [], content, (rq_body r). split.
      { rewrite firstn_app. replace (n - length (request_lines ev r)) with 0 by lia. cbn [firstn]. rewrite app_nil_r, app_length.
        destruct (Nat.leb_spec (length (request_lines ev r) + length content) n); [lia|]. now destruct r. }
      split; [reflexivity|]. split; [exact Hh|]. destruct (Nat.ltb_spec n (length (request_lines ev r))); [reflexivity|lia].
  - rewrite write_calls_none, Hl.
    destruct (copy_holds (copy_fuel (rq_body r)) sz Hsz 0 (rq_body r) content None Hh) as (taken & rest & b' & E & -> & H1 & H2); [unfold copy_fuel, br_size; lia|].
    rewrite E. exists taken, rest, b'. auto.
Qed.

(** Which bodies hold what: strings, and bodies of parsed requests (C29 says what these are). *)
Lemma string_holds s : body_holds (body_from_string s) s.
Proof.
  exists s, []. split; [exists []; cbn; rewrite app_nil_r; split; [reflexivity|constructor]|]. split; [cbn; lia|]. cbn [body_from_string b_length b_read].
  split; [lia|]. rewrite N.sub_0_r, Nnat.Nat2N.id, firstn_all. auto.
Qed.

Lemma parsed_holds {U} (ev : env U) s meth target fs rest r : sent ev s meth target fs rest [] -> request_parse ev s = Ok (Some r) ->
  exists content, body_holds (rq_body r) content /\ exists more, rest = content ++ more.
Proof.
  intros Hs E. destruct (utf8_or_not fs) as [Hu|(g & Hg & Hb)].
  2: { rewrite (sent_bad_utf8 ev s meth target fs rest [] Hs g Hg Hb) in E. discriminate. }
  destruct (sent_headers ev s meth target fs rest [] Hs Hu) as (rd & Hr & Hc & E'). rewrite E' in E.
  destruct (find_header (bs "host") _); [|discriminate]. destruct (request_url _ _ _ _); [|discriminate]. injection E as <-. cbn [rq_body].
  set (len := parsed_length _ _). exists (match len with None => rest | Some n => firstn (N.to_nat n) rest end). split.
  - exists rest, []. split; [exact Hr|]. split; [exact Hc|]. cbn [body_from_reader b_length b_read]. destruct len; [|auto]. rewrite N.sub_0_r. split; [lia|auto].
  - destruct len; [|exists []; now rewrite app_nil_r]. eexists. symmetry. apply firstn_skipn.
Qed.

(** ** C119 *)

(** Sending a request a second time, after a first attempt that the transport broke off after [n] bytes or that went
    through: its head is written again, but of the body only what the first attempt has not read. Everything the first
    attempt delivered is missing, and possibly more. *)
Theorem C119_again_partial : forall U (ev : env U) sz1 sz2 (r r1 : request U) content first out1 res1, positive sz1 -> positive sz2 ->
  body_holds (rq_body r) content -> request_send ev sz1 r first = (out1, res1, r1) ->
  exists taken rest r2, content = taken ++ rest /\ request_send ev sz2 r1 None = (request_lines ev r ++ rest, Ok tt, r2) /\
    (forall given, out1 = request_lines ev r ++ given -> length given <= length taken) /\
    (res1 = Ok tt -> rest = []).
Proof.
  intros U ev sz1 sz2 r r1 content first out1 res1 H1 H2 Hh E.
  destruct (one_attempt ev sz1 r content first H1 Hh) as (taken & rest & b' & E1 & -> & Hb & Hm). rewrite E1 in E. injection E as <- <- <-.
  destruct (one_attempt ev sz2 (Request (rq_headers r) (rq_method r) b' (rq_url r)) rest None H2 Hb) as (t2 & rest2 & b2 & E2 & _).
  exists taken, rest, (Request (rq_headers r) (rq_method r) b2 (rq_url r)). split; [reflexivity|]. split; [exact E2|].
  destruct first as [n|].
  - split.
    + intros given Hg. apply (f_equal (@length _)) in Hg. rewrite firstn_length, !app_length in Hg. revert Hm.
      destruct (Nat.ltb_spec n (length (request_lines ev r))); [intros ->; cbn in *; lia|]. rewrite !app_length.
      destruct (Nat.leb_spec (length (request_lines ev r) + (length taken + length rest)) n); [intros ->; cbn in *; lia|lia].
    + revert Hm. destruct (Nat.ltb_spec n (length (request_lines ev r))); [|destruct (Nat.leb _ n); [auto|discriminate]].
      rewrite !app_length. destruct (Nat.leb_spec (length (request_lines ev r) + (length taken + length rest)) n); [lia|discriminate].
  - subst rest. split; [|auto]. intros given Hg. apply app_inv_head in Hg. subst given. rewrite app_nil_r. lia.
Qed.

(** Exactly when a second attempt sends the whole request: the first one was broken off within the head, or there is no
    body. *)
Theorem C119_again_exactly : forall U (ev : env U) sz1 sz2 (r : request U) content first, positive sz1 -> positive sz2 ->
  body_holds (rq_body r) content ->
  (fst (request_send ev sz2 (snd (request_send ev sz1 r first)) None) = (request_lines ev r ++ content, Ok tt) <->
   content = [] \/ exists n, first = Some n /\ n < length (request_lines ev r)).
Proof.
  intros U ev sz1 sz2 r content first H1 H2 Hh.
  destruct (one_attempt ev sz1 r content first H1 Hh) as (taken & rest & b' & E1 & -> & Hb & Hm). rewrite E1. cbn [snd].
  destruct (one_attempt ev sz2 (Request (rq_headers r) (rq_method r) b' (rq_url r)) rest None H2 Hb) as (t2 & rest2 & b2 & E2 & _). rewrite E2. cbn [fst].
  change (request_lines ev (Request (rq_headers r) (rq_method r) b' (rq_url r))) with (request_lines ev r).
  assert ((request_lines ev r ++ rest, @Ok ioerr unit tt) = (request_lines ev r ++ taken ++ rest, Ok tt) <-> taken = []) as ->.
  { split; [|intros ->; reflexivity]. intros [= H]. apply app_inv_head in H. destruct taken as [|x t]; [reflexivity|]. apply (f_equal (@length _)) in H. rewrite app_length in H. cbn in H. lia. }
  split.
  - intros ->. destruct first as [n|]; [|left; cbn [app]; exact Hm]. revert Hm. destruct (Nat.ltb_spec n (length (request_lines ev r))); [right; eauto|].
    cbn [app length]. destruct (Nat.leb _ n); [intros ->; now left|lia].
  - intros [H|(n & -> & Hn)]; [now apply app_eq_nil in H|]. destruct (Nat.ltb_spec n (length (request_lines ev r))); [exact Hm|lia].
Qed.

(** Sending it again is not sending it twice: the second time the body is missing, though its length is announced, and
    whoever reads it takes the next five bytes of the connection for it. *)
Definition again_request : request str :=
  Request [(bs "Host", bs "h"); (bs "Content-Length", bs "5")] Post (body_from_string (bs "hello")) (bs "http://h/").
Theorem C119_again_refuted : exists first second r1 r2 r,
  request_send (demo_env (fun m => m)) sz1 again_request None = (first, Ok tt, r1) /\
  request_send (demo_env (fun m => m)) sz1 r1 None = (second, Ok tt, r2) /\
  first = request_lines (demo_env (fun m => m)) again_request ++ bs "hello" /\
  second = request_lines (demo_env (fun m => m)) again_request /\
  request_parse (demo_env (fun m => m)) [Data (second ++ bs "GET / HTTP/1.1")] = Ok (Some r) /\
  into_bytes sz1 (rq_body r) = Ok (bs "GET /").
Proof. eexists _, _, _, _, _. repeat split; vm_compute; reflexivity. Qed.

(** A first attempt broken off within the body (after 5 of its 11 bytes; the sixth has been read and is lost). *)
Definition cut_request : request str :=
  Request [(bs "Host", bs "h"); (bs "Content-Length", bs "11")] Post (body_from_string (bs "hello world")) (bs "http://h/").
Example C119_example : body_holds (rq_body cut_request) (bs "hello world") /\ positive (fun _ => 1) /\ positive (fun _ => 4) /\
  exists out1 r1 r2, request_send (demo_env (fun m => m)) (fun _ => 1) cut_request (Some (length (request_lines (demo_env (fun m => m)) cut_request) + 5)) = (out1, Err EOther, r1) /\
    out1 = request_lines (demo_env (fun m => m)) cut_request ++ bs "hello" /\
    request_send (demo_env (fun m => m)) (fun _ => 4) r1 None = (request_lines (demo_env (fun m => m)) cut_request ++ bs "world", Ok tt, r2).
Proof.
  split; [apply string_holds|]. split; [intros i; lia|]. split; [intros i; lia|]. eexists _, _, _. split; [vm_compute; reflexivity|]. split; vm_compute; reflexivity.
Qed.
Print Assumptions C119_again_partial.
Print Assumptions C119_again_exactly.
Print Assumptions C119_again_refuted.
