(** C124: the server gets the requests that were sent. *)
From Verif Require Import Base HMap Num Io IoProofs HttpModel HttpSpec Httparse HttpProofs2 HttpProofs3 HttpProofs4 HttpLemmas HttpLemmas2 WsProofs
  FramingSpec AnswerSpec PropHttp PropAnswer.
From Coq Require Import Lia Permutation.

Lemma same_request meth target fs rest meth' target' fs' rest' : request_head_ok meth target fs -> request_head_ok meth' target' fs' ->
  request_head meth target fs ++ rest = request_head meth' target' fs' ++ rest' ->
  meth' = meth /\ target' = target /\ map pair_of fs' = map pair_of fs /\ rest' = rest.
Proof.
  intros H H' E. assert (request_head meth target fs = request_head meth' target' fs') as Eh.
  { pose proof (request_head_complete _ _ _ H) as [[p Ep] U]. pose proof (request_head_complete _ _ _ H') as [[p' Ep'] U'].
    destruct (app_eq_app _ _ _ _ E) as (l & [[E1 E2]|[E1 E2]]).
    - assert (l = []) as ->; [|now rewrite app_nil_r in E1]. apply (U p' l). rewrite E1, Ep', <- !app_assoc. reflexivity.
    - assert (l = []) as ->; [|now rewrite app_nil_r in E1]. apply (U' p l). rewrite E1, Ep, <- !app_assoc. reflexivity. }
  rewrite Eh in E. apply app_inv_head in E. pose proof (httparse_reads_requests _ _ _ H) as R. rewrite Eh, (httparse_reads_requests _ _ _ H') in R.
  injection R as -> -> Em. repeat split; auto.
Qed.
(** Where a body ends is determined, and depends on names and values only. *)
Lemma framed_unique fs fs' bytes content rest content' rest' : map pair_of fs' = map pair_of fs -> ~ has_field (bs "transfer-encoding") fs ->
  framed fs bytes content rest -> framed fs' bytes content' rest' -> content' = content /\ rest' = rest.
Proof.
  intros Em Ht F F'. destruct F as [f coded content rest Hi Hn _ _|ds content rest _ L Fa S1 S2 S3|rest _ L].
  { exfalso. apply Ht. apply Exists_exists. eauto. }
  - remember (content ++ rest) as bytes eqn:E. destruct F' as [f coded content' rest' Hi Hn _ _|ds' content' rest' _ L' Fa' S1' S2' S3'|rest' _ L'].
    + exfalso. apply Ht, (has_pairs _ fs' fs (eq_sym Em)). apply Exists_exists. eauto.
    + apply (all_pairs _ fs' fs (eq_sym Em)) in Fa'. assert (length content = length content') as El by (apply (says_same fs ds ds'); auto; repeat split; assumption).
      symmetry in E. destruct (app_same_length _ _ _ _ E El) as [E1 E2]. now split.
    + exfalso. apply L'. exact (has_pairs _ fs fs' Em L).
  - destruct F' as [f coded content' rest' Hi Hn _ _|ds' content' rest' _ L' Fa' S1' S2' S3'|rest' _ L'].
    + exfalso. apply Ht, (has_pairs _ fs' fs (eq_sym Em)). apply Exists_exists. eauto.
    + exfalso. apply L. exact (has_pairs _ fs' fs (eq_sym Em) L').
    + now split.
Qed.
Lemma framed_pairs fs fs' bytes content rest : map pair_of fs' = map pair_of fs -> framed fs bytes content rest -> framed fs' bytes content rest.
Proof.
  intros Em [f coded c r Hi Hn Hv Hc|ds c r T L Fa S1 S2 S3|r T L].
  - assert (In (pair_of f) (map pair_of fs')) as H by (rewrite Em; now apply in_map). apply in_map_iff in H as (f' & Ef & H). injection Ef as E1 E2.
    apply (by_chunks fs' f'); [exact H|now rewrite E1|now rewrite E2|exact Hc].
  - apply (by_length fs' ds); auto; [|exact (has_pairs _ _ _ Em L)|exact (all_pairs _ _ _ Em Fa)]. intros H. apply T. exact (has_pairs _ fs' fs (eq_sym Em) H).
  - apply no_body; intros H; [apply T|apply L]; exact (has_pairs _ fs' fs (eq_sym Em) H).
Qed.
Lemma one_more meth target fs hs bytes content rest more : request_head_ok meth target fs -> map pair_of fs = hs -> framed fs bytes content rest -> taken rest more ->
  taken (request_head meth target fs ++ bytes) (Asked meth target hs content :: more).
Proof. intros H <- F T. exact (one_taken _ _ _ _ _ _ _ H F T). Qed.
(** ** C124 *)
(** A request that can be written and read as HTTP, and codes nothing itself. *)
Definition askable {U} (ev : env U) (r : request U) : Prop :=
  plain_method (rq_method r) /\ url_path ev (rq_url r) <> [] /\ Forall target_char (url_path ev (rq_url r)) /\ writable_headers (rq_headers r) /\
  forall k v, In (k, v) (rq_headers r) -> to_lower k <> bs "transfer-encoding".
(** The fields say where the body ends: they announce its length, or there is none. *)
Definition delimited (hs : list (str * str)) (content : str) : Prop :=
  (announces hs /\ announced_right hs (length content)) \/ (~ announces hs /\ content = []).
Definition as_asked {U} (ev : env U) (r : request U) (content : str) : asked :=
  Asked (method_text (rq_method r)) (url_path ev (rq_url r)) (rq_headers r) content.
Lemma asked_head {U} (ev : env U) sz r content : askable ev r -> into_bytes sz (rq_body r) = Ok content ->
  request_head_ok (method_text (rq_method r)) (url_path ev (rq_url r)) (map plain_field (rq_headers r)) /\
  map pair_of (map plain_field (rq_headers r)) = rq_headers r /\ ~ has_field (bs "transfer-encoding") (map plain_field (rq_headers r)) /\
  request_write ev sz r None = (request_head (method_text (rq_method r)) (url_path ev (rq_url r)) (map plain_field (rq_headers r)) ++ content, Ok tt).
Proof.
  intros (Hm & Hu & Hc & (W & L & F) & T) Hb. split; [|split; [|split]].
  - assert (method_text (rq_method r) <> [] /\ Forall tchar (method_text (rq_method r))) as [M1 M2].
    { destruct (rq_method r) as [| | |n]; cbn [plain_method method_text] in *; [| |contradiction|now destruct Hm as (? & ? & _)]; (split; [discriminate|apply tchars_lit; reflexivity]). }
    split; [exact M1|]. split; [exact M2|]. split; [exact Hu|]. split; [exact Hc|]. split; [|now rewrite map_length]. rewrite Forall_map. eapply Forall_impl; [|exact F]. now intros kv [H _].
  - apply plain_pairs.
  - unfold has_field. rewrite Exists_exists. intros (f & Hf & Hn). apply in_map_iff in Hf as ([k v] & <- & Hi). exact (T _ _ Hi Hn).
  - destruct (drain_of_into sz _ _ Hb) as (chunks & b' & Ed & Ec). rewrite (request_write_exact ev sz r chunks b' Ed), Ec. unfold request_head. rewrite <- header_lines_fields, <- !app_assoc. reflexivity.
Qed.
Lemma delimited_framed hs content rest : delimited hs content -> ~ has_field (bs "transfer-encoding") (map plain_field hs) ->
  framed (map plain_field hs) (content ++ rest) content rest.
Proof.
  intros [[A (ds & (S1 & S2 & S3) & F)]|[A ->]] Ht.
  - eapply (by_length _ ds); auto; [now apply (announces_field hs hs (Permutation_refl _))|now apply (values_field hs hs ds (Permutation_refl _))].
  - cbn [app]. apply no_body; [exact Ht|]. intros H. apply A. now apply (announces_field hs hs (Permutation_refl _)).
Qed.
Lemma framed_delimited hs content : framed (map plain_field hs) content content [] -> ~ has_field (bs "transfer-encoding") (map plain_field hs) -> delimited hs content.
Proof.
  intros F Ht. remember [] as rest eqn:Er. remember content as bytes eqn:Eb in F at 1.
  destruct F as [f coded content rest Hi Hn _ _|ds content rest _ L Fa S1 S2 S3|rest _ L].
  - exfalso. apply Ht. apply Exists_exists. eauto.
  - left. split; [now apply (announces_field hs hs (Permutation_refl _))|]. exists ds. split; [repeat split; assumption|]. now apply (values_field hs hs ds (Permutation_refl _)).
  - right. split; [|reflexivity]. intros H. apply L. now apply (announces_field hs hs (Permutation_refl _)).
Qed.
(** A server takes a request for what was sent, if and only if its fields say where its body ends. *)
Theorem C124_exactly : forall U (ev : env U) sz r content, askable ev r -> into_bytes sz (rq_body r) = Ok content ->
  exists wire, request_write ev sz r None = (wire, Ok tt) /\ (taken wire [as_asked ev r content] <-> delimited (rq_headers r) content).
Proof.
  intros U ev sz r content Ha Hb. destruct (asked_head ev sz r content Ha Hb) as (Hok & Hp & Ht & E). eexists. split; [exact E|]. split.
  - intros T. assert (forall wire l, taken wire l -> wire = request_head (method_text (rq_method r)) (url_path ev (rq_url r)) (map plain_field (rq_headers r)) ++ content -> l = [as_asked ev r content] -> framed (map plain_field (rq_headers r)) content content []) as G.
    { clear T. intros wire l [|meth target fs bytes c rest more Hok' F T'] Ew El; [discriminate|]. symmetry in Ew. destruct (same_request _ _ _ _ _ _ _ _ Hok Hok' Ew) as (-> & -> & Em & ->).
      injection El as _ -> ->. inversion T'; subst rest. exact (framed_pairs _ _ _ _ _ (eq_sym Em) F). }
    apply framed_delimited; [|exact Ht]. exact (G _ _ T eq_refl eq_refl).
  - intros D. rewrite <- (app_nil_r content) at 1. unfold as_asked. apply one_more with (rest := []); [exact Hok|exact Hp| |constructor]. now apply delimited_framed.
Qed.
Print Assumptions C124_exactly.

(** Requests written one behind the other. *)
Definition all_written {U} (ev : env U) (sz : nat -> nat) (rs : list (request U * str)) : str := flat_map (fun rc => fst (request_write ev sz (fst rc) None)) rs.
Definition fine {U} (ev : env U) (sz : nat -> nat) (rc : request U * str) : Prop :=
  askable ev (fst rc) /\ into_bytes sz (rq_body (fst rc)) = Ok (snd rc) /\ delimited (rq_headers (fst rc)) (snd rc).
(** A series of such requests, written one behind the other on a connection, is taken for exactly that series. *)
Theorem C124_series_partial : forall U (ev : env U) sz rs, Forall (fine ev sz) rs ->
  forall l, taken (all_written ev sz rs) l <-> l = map (fun rc => as_asked ev (fst rc) (snd rc)) rs.
Proof.
  intros U ev sz rs H. induction H as [|[r content] rs (Ha & Hb & D) _ IH]; cbn [all_written flat_map map fst snd] in *.
  - intros l. split; [|intros ->; constructor]. intros T. inversion T as [|meth target fs bytes c rest more Hok F T' Ew]; [reflexivity|].
    destruct Hok as (M & _). apply app_eq_nil in Ew as [Ew _]. unfold request_head in Ew. apply app_eq_nil in Ew as [Ew _]. contradiction.
  - destruct (asked_head ev sz r content Ha Hb) as (Hok & Hp & Ht & E). rewrite E. cbn [fst]. rewrite <- app_assoc. fold (all_written ev sz rs).
    intros l. split.
    + intros T. inversion T as [Ew|meth target fs bytes c rest more Hok' F T' Ew].
      * exfalso. destruct Hok as (M & _). symmetry in Ew. apply app_eq_nil in Ew as [Ew _]. unfold request_head in Ew. apply app_eq_nil in Ew as [Ew _]. contradiction.
      * symmetry in Ew. destruct (same_request _ _ _ _ _ _ _ _ Hok Hok' Ew) as (-> & -> & Em & ->).
        destruct (framed_unique _ _ _ _ _ _ _ Em Ht (delimited_framed _ _ (all_written ev sz rs) D Ht) F) as [-> ->]. rewrite (proj1 (IH more) T'). unfold as_asked. now rewrite Em, Hp.
    + intros ->. unfold as_asked at 1. apply one_more with (rest := all_written ev sz rs); [exact Hok|exact Hp|now apply delimited_framed|]. now apply IH.
Qed.
Print Assumptions C124_series_partial.
(** But [Request::write] announces no length of its own. The body of a request that does not is taken for further requests: one
    request is written, and the server takes it for one without a body and all those in its body. *)
Theorem C124_smuggled_refuted : forall U (ev : env U) sz r rs, askable ev r -> ~ announces (rq_headers r) ->
  into_bytes sz (rq_body r) = Ok (all_written ev sz rs) -> Forall (fine ev sz) rs ->
  exists wire, request_write ev sz r None = (wire, Ok tt) /\
    forall l, taken wire l <-> l = as_asked ev r [] :: map (fun rc => as_asked ev (fst rc) (snd rc)) rs.
Proof.
  intros U ev sz r rs Ha Hn Hb Hf. destruct (asked_head ev sz r _ Ha Hb) as (Hok & Hp & Ht & E). eexists. split; [exact E|].
  assert (delimited (rq_headers r) []) as D by (right; now split). pose proof (delimited_framed _ _ (all_written ev sz rs) D Ht) as Fr. cbn [app] in Fr.
  intros l. split.
  - intros T. inversion T as [Ew|meth target fs bytes c rest more Hok' F T' Ew].
    + exfalso. destruct Hok as (M & _). symmetry in Ew. apply app_eq_nil in Ew as [Ew _]. unfold request_head in Ew. apply app_eq_nil in Ew as [Ew _]. contradiction.
    + symmetry in Ew. destruct (same_request _ _ _ _ _ _ _ _ Hok Hok' Ew) as (-> & -> & Em & ->).
      destruct (framed_unique _ _ _ _ _ _ _ Em Ht Fr F) as [-> ->]. apply (C124_series_partial U ev sz rs Hf) in T'. subst more. unfold as_asked at 1. now rewrite Em, Hp.
  - intros ->. unfold as_asked at 1. apply one_more with (rest := all_written ev sz rs); [exact Hok|exact Hp|exact Fr|]. now apply (C124_series_partial U ev sz rs Hf).
Qed.
Print Assumptions C124_smuggled_refuted.

(** A POST whose body is the text of a request, and does not announce its length: the server takes it for two requests. *)
Definition inner_request : request str := Request [(bs "Host", bs "h")] Get (body_from_string []) (bs "http://h/admin").
Definition outer_request : request str := Request [(bs "Host", bs "h")] Post (body_from_string (fst (request_write (demo_env (fun m => m)) sz1 inner_request None))) (bs "http://h/note").
Example C124_example : exists wire, request_write (demo_env (fun m => m)) sz1 outer_request None = (wire, Ok tt) /\
  taken wire [Asked (bs "POST") (bs "/note") [(bs "Host", bs "h")] []; Asked (bs "GET") (bs "/admin") [(bs "Host", bs "h")] []].
Proof.
  assert (forall m p b, plain_method m -> demo_path p <> [] -> Forall target_char (demo_path p) -> askable (demo_env (fun m => m)) (Request [(bs "Host", bs "h")] m b p)) as A.
  { intros m p b Hm Hp Ht. split; [exact Hm|]. split; [exact Hp|]. split; [exact Ht|]. split; [|intros k v [[= <- _]|[]]; vm_compute; discriminate].
    split; [repeat constructor; easy|]. split; [cbn; lia|]. apply fields_lit. reflexivity. }
  assert (~ announces [(bs "Host", bs "h")]) as Hn by (intros (k & v & [[= <- _]|[]] & Hk); vm_compute in Hk; discriminate).
  destruct (C124_smuggled_refuted str (demo_env (fun m => m)) sz1 outer_request [(inner_request, [])]) as (wire & E & T).
  - apply A; [exact I|discriminate|]. apply targets_lit. reflexivity.
  - exact Hn.
  - vm_compute. reflexivity.
  - constructor; [|constructor]. split; [apply A; [exact I|discriminate|apply targets_lit; reflexivity]|]. split; [reflexivity|]. right. now split.
  - exists wire. split; [exact E|]. apply T. reflexivity.
Qed.
(** With its length announced the same request is taken for what it is. *)
Example C124_fine_example : fine (demo_env (fun m => m)) sz1
  (Request [(bs "Host", bs "h"); (bs "Content-Length", bs "5")] Post (body_from_string (bs "hello")) (bs "http://h/note"), bs "hello").
Proof.
  split; [|split; [reflexivity|]].
  - split; [exact I|]. split; [discriminate|]. split; [apply targets_lit; reflexivity|]. split.
    + split; [repeat constructor; cbn [map fst In]; [intros [H|[]]; discriminate|easy]|]. split; [cbn; lia|]. apply fields_lit. reflexivity.
    + intros k v [[= <- _]|[[= <- _]|[]]]; vm_compute; discriminate.
  - left. split; [exists (bs "Content-Length"), (bs "5"); split; [right; now left|reflexivity]|].
    exists (bs "5"). split; [split; [discriminate|]; split; [constructor; [vm_compute; split; discriminate|constructor]|reflexivity]|].
    intros k v [[= <- <-]|[[= <- <-]|[]]]; [vm_compute; discriminate|reflexivity].
Qed.
