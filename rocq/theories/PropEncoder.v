(** * C120: an encoder used again *)
From Verif Require Import Base HMap Num Utf8 Io IoProofs HttpModel HttpSpec Httparse HttpProofs HttpProofs2 HttpProofs3 HttpProofs4 HttpLemmas HttpLemmas2 PropBody SendModel PropSend.
From Coq Require Import Lia Permutation Sorted.

(** ** Specification *)

(** What comes before the body. *)
Definition head_of (r : response) (head : str) : Prop := exists hs, Permutation hs (rs_headers r) /\ StronglySorted (fun a b => bytes_lt (fst a) (fst b)) hs /\
  head = bs "HTTP/1.1 " ++ dec (rs_status r) ++ bs " " ++ rs_reason r ++ CRLF ++ flat_map (fun kv => fst kv ++ bs ": " ++ snd kv ++ CRLF) hs ++ CRLF.
(** A transport that breaks off before the body begins. *)
Definition breaks_off_in (head : str) (budget : option nat) : Prop := exists n, budget = Some n /\ n < length head.
(** A series of attempts to write a response with this head, one per transport ([Some n]: it takes [n] bytes and then fails): of the
    body only [content] is left in the beginning and [rest] in the end.
    - Broken off in the head: the body is untouched.
    - Written whole: nothing is left of the body.
    - Broken off in the body: what was written of it is gone, and so is some more that had been read and was [lost]. *)
Inductive served (head : str) : str -> list (option nat) -> list (str * res ioerr unit) -> str -> Prop :=
| served_none content : served head content [] [] content
| served_head content n budgets outs rest : n < length head -> served head content budgets outs rest ->
    served head content (Some n :: budgets) ((firstn n head, Err EOther) :: outs) rest
| served_whole content budget budgets outs rest : (forall n, budget = Some n -> length (head ++ content) <= n) -> served head [] budgets outs rest ->
    served head content (budget :: budgets) ((head ++ content, Ok tt) :: outs) rest
| served_part written lost left n budgets outs rest : n = length (head ++ written) -> lost <> [] -> served head left budgets outs rest ->
    served head (written ++ lost ++ left) (Some n :: budgets) ((head ++ written, Err EOther) :: outs) rest.

(** ** Proofs *)
Definition response_calls (r : response) : list str :=
  (bs "HTTP/1.1 " ++ dec (rs_status r) ++ bs " " ++ rs_reason r ++ [x0d; x0a]) :: map header_line (sort_headers (rs_headers r)) ++ [[x0d; x0a]].
Lemma response_calls_head r : hm_wf (rs_headers r) -> head_of r (concat (response_calls r)).
Proof.
  intros W. exists (sort_headers (rs_headers r)). split; [symmetry; apply sort_headers_perm|]. split.
  - apply sorted_strict; [|apply sort_headers_sorted]. eapply Permutation_NoDup; [|exact W]. apply Permutation_map, sort_headers_perm.
  - unfold response_calls. cbn [concat]. rewrite !concat_app. cbn [concat app].
    change (fun kv : str * str => fst kv ++ bs ": " ++ snd kv ++ CRLF) with header_line. rewrite flat_map_concat_map, <- !app_assoc. reflexivity.
Qed.
(** Forgetting the response left behind gives [encode]. *)
Lemma encoder_is_encode sz r budget : fst (encoder_send sz r budget) = encode sz r budget.
Proof.
  unfold encoder_send, encode. fold (response_calls r). change (drain sz (rs_body r)) with (drain_loop (copy_fuel (rs_body r)) sz 0 br_read (rs_body r)).
  destruct (drain_loop _ sz 0 br_read (rs_body r)) as [ds [c b']] eqn:E. rewrite write_calls_app.
  destruct (write_calls (response_calls r) budget) as [out [|]]; [|reflexivity].
  destruct (copy_drain _ sz 0 (rs_body r) (match budget with Some n => Some (n - length out) | None => None end) ds c b' E) as (H1 & H2 & _).
  destruct (copy_loop _ _ _ _ _) as [o [c' b2]], (write_calls ds _) as [o' ok]. cbn [fst snd] in *. now subst.
Qed.
Definition with_body (r : response) (b : hbody) : response := Response (rs_headers r) b (rs_status r) (rs_reason r).
Lemma one_use sz r content budget : positive sz -> body_holds (rs_body r) content -> let head := concat (response_calls r) in
  exists out result b' left, encoder_send sz r budget = (out, result, with_body r b') /\ body_holds b' left /\
    forall budgets outs rest, served head left budgets outs rest -> served head content (budget :: budgets) ((out, result) :: outs) rest.
Proof.
  intros Hsz Hh head. unfold encoder_send. fold (response_calls r). destruct budget as [n|].
  - rewrite write_calls_some. fold head. destruct (Nat.leb_spec (length head) n) as [Hle|Hgt].
    + rewrite firstn_all2 by exact Hle.
      destruct (copy_holds (copy_fuel (rs_body r)) sz Hsz 0 (rs_body r) content (Some (n - length head)) Hh) as (taken & left & b' & E & -> & H1 & H2); [unfold copy_fuel, br_size; lia|].
      rewrite E. revert H2. destruct (Nat.leb_spec (length (taken ++ left)) (n - length head)) as [Hl|Hl]; intros H2.
      * subst left. rewrite app_nil_r in *. rewrite firstn_all2 by exact Hl. exists (head ++ taken), (Ok tt), b', []. split; [reflexivity|]. split; [exact H1|].
        intros budgets outs rest Hs. apply served_whole; [|exact Hs]. intros m [= <-]. rewrite app_length. lia.
      * exists (head ++ firstn (n - length head) (taken ++ left)), (Err EOther), b', left. split; [reflexivity|]. split; [exact H1|].
        intros budgets outs rest Hs. rewrite firstn_app. replace (n - length head - length taken) with 0 by lia. cbn [firstn]. rewrite app_nil_r.
        rewrite <- (firstn_skipn (n - length head) taken) at 1. rewrite <- app_assoc. apply served_part; [|intros X|exact Hs].
        -- rewrite app_length, firstn_length. lia.
        -- apply (f_equal (@length _)) in X. rewrite skipn_length in X. cbn [length] in X. lia.
    + exists (firstn n head), (Err EOther), (rs_body r), content. split; [now destruct r|]. split; [exact Hh|]. intros budgets outs rest Hs. now apply served_head.
  - rewrite write_calls_none. fold head.
    destruct (copy_holds (copy_fuel (rs_body r)) sz Hsz 0 (rs_body r) content None Hh) as (taken & left & b' & E & -> & H1 & ->); [unfold copy_fuel, br_size; lia|].
    rewrite E, app_nil_r. exists (head ++ taken), (Ok tt), b', []. split; [reflexivity|]. split; [exact H1|]. intros budgets outs rest Hs. apply served_whole; [discriminate|exact Hs].
Qed.
Lemma series uses : forall r content, Forall (fun u => positive (fst u)) uses -> body_holds (rs_body r) content ->
  exists b' rest, encoder_series uses r = (fst (encoder_series uses r), with_body r b') /\ body_holds b' rest /\
    served (concat (response_calls r)) content (map snd uses) (fst (encoder_series uses r)) rest.
Proof.
  induction uses as [|[sz budget] uses IH]; intros r content Hp Hh; cbn [encoder_series map snd].
  - exists (rs_body r), content. split; [now destruct r|]. split; [exact Hh|constructor].
  - inversion Hp as [|? ? P1 P2]; subst. destruct (one_use sz r content budget P1 Hh) as (out & result & b1 & left & E & H1 & H2). rewrite E.
    destruct (IH (with_body r b1) left P2 H1) as (b' & rest & E2 & H3 & H4). rewrite E2. exists b', rest. split; [reflexivity|]. split; [exact H3|]. cbn [fst]. apply H2. exact H4.
Qed.

(** ** C120 *)

(** What the receivers get when one encoder is used for a series of them. *)
Theorem C120_series_partial : forall uses r content outs r', hm_wf (rs_headers r) -> Forall (fun u => positive (fst u)) uses -> body_holds (rs_body r) content ->
  encoder_series uses r = (outs, r') ->
  exists head rest, head_of r head /\ served head content (map snd uses) outs rest /\ body_holds (rs_body r') rest.
Proof.
  intros uses r content outs r' W Hp Hh E. destruct (series uses r content Hp Hh) as (b' & rest & E2 & H1 & H2). rewrite E in *. cbn [fst] in *. injection E2 as ->.
  exists (concat (response_calls r)), rest. split; [now apply response_calls_head|]. auto.
Qed.
Print Assumptions C120_series_partial.

Lemma served_rest head content budgets outs rest : served head content budgets outs rest -> (rest = content <-> content = [] \/ Forall (breaks_off_in head) budgets) /\ (content = [] -> rest = []) /\ length rest <= length content.
Proof.
  induction 1 as [content|content n budgets outs rest Hn _ (I1 & I2 & I3)|content budget budgets outs rest Hf _ (I1 & I2 & I3)|written lost left n budgets outs rest Hn Hl _ (I1 & I2 & I3)].
  - split; [|auto]. split; [right; constructor|reflexivity].
  - split; [|auto]. rewrite I1. split; (intros [H|H]; [now left|right]); [constructor; [exists n; auto|exact H]|now inversion H].
  - rewrite (I2 eq_refl). split; [|split; [reflexivity|cbn; lia]]. split; [auto|]. intros [->|H]; [reflexivity|]. inversion H as [|? ? Y _]; subst. destruct Y as (n & En & Hn). specialize (Hf n En). rewrite app_length in Hf. lia.
  - assert (length lost > 0) by (destruct lost; [congruence|cbn; lia]). split; [|split].
    + split.
      * intros X. apply (f_equal (@length _)) in X. rewrite !app_length in X. lia.
      * intros [X|X]; [apply app_eq_nil in X as [_ X]; apply app_eq_nil in X as [X _]; contradiction|]. inversion X as [|? ? Y _]; subst. destruct Y as (k & Ek & Hk). injection Ek as Ek. rewrite app_length in Ek. lia.
    + intros X. apply app_eq_nil in X as [_ X]. apply app_eq_nil in X as [X _]. contradiction.
    + rewrite !app_length. lia.
Qed.
(** Exactly when a further receiver gets the whole response: there is no body, or every attempt so far was broken off in the head. *)
Theorem C120_again_exactly : forall uses sz r content, hm_wf (rs_headers r) -> Forall (fun u => positive (fst u)) uses -> positive sz -> body_holds (rs_body r) content ->
  exists head, head_of r head /\
  (encode sz (snd (encoder_series uses r)) None = (head ++ content, Ok tt) <-> content = [] \/ Forall (breaks_off_in head) (map snd uses)).
Proof.
  intros uses sz r content W Hp Hsz Hh. destruct (series uses r content Hp Hh) as (b' & rest & E & H1 & H2). rewrite E. cbn [snd].
  exists (concat (response_calls r)). split; [now apply response_calls_head|]. rewrite <- (proj1 (served_rest _ _ _ _ _ H2)).
  destruct (one_use sz (with_body r b') rest None Hsz H1) as (out & result & b2 & left & E2 & _ & H3).
  rewrite <- encoder_is_encode, E2. cbn [fst]. specialize (H3 [] [] left (served_none _ _)).
  change (concat (response_calls (with_body r b'))) with (concat (response_calls r)) in H3. inversion H3 as [| |? ? ? ? ? _ _|]; subst.
  split; [intros [= X]; now apply app_inv_head in X|intros ->; reflexivity].
Qed.
Print Assumptions C120_again_exactly.

(** Writing the same response to two receivers: the second is promised five bytes and gets none. *)
Definition twice_response : response :=
  Response [(bs "Content-Length", bs "5")] (body_from_string (bs "hello")) 200 (bs "OK").
Theorem C120_again_refuted : exists first second r',
  encoder_series [((fun _ => 4), None); ((fun _ => 4), None)] twice_response = ([(first, Ok tt); (second, Ok tt)], r') /\
  first = second ++ bs "hello" /\ second = bs "HTTP/1.1 200 OK" ++ CRLF ++ bs "Content-Length: 5" ++ CRLF ++ CRLF.
Proof. eexists _, _, _. repeat split; vm_compute; reflexivity. Qed.
Print Assumptions C120_again_refuted.
(** Not vacuous: broken off in the head, then in the body, then written out. *)
Example C120_example : hm_wf (rs_headers twice_response) /\ body_holds (rs_body twice_response) (bs "hello") /\
  exists outs r', encoder_series [((fun _ => 2), Some 3); ((fun _ => 2), Some 39); ((fun _ => 2), None)] twice_response = (outs, r') /\
    map snd outs = [Err EOther; Err EOther; Ok tt] /\ nth 0 (map fst outs) [] = bs "HTT" /\
    exists head, nth 1 (map fst outs) [] = head ++ bs "h" /\ nth 2 (map fst outs) [] = head ++ bs "llo".
Proof.
  split; [constructor; [easy|constructor]|]. split; [apply string_holds|]. eexists _, _. split; [vm_compute; reflexivity|]. split; [reflexivity|]. split; [reflexivity|].
  exists (bs "HTTP/1.1 200 OK" ++ CRLF ++ bs "Content-Length: 5" ++ CRLF ++ CRLF). split; vm_compute; reflexivity.
Qed.
