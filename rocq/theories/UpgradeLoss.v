(** What happens to bytes in the segment that ends a request head. *)
From Verif Require Import Base HMap Io IoProofs HttpModel HttpSpec HttpProofs HttpProofs3 WsModel UpgradeModel UpgradeProofs.

(** The reader still has [rem] of the head to give; the segment with its last byte also holds [extra], then comes [rest]. *)
Definition shelf (extra : str) (rest : stream) (b : bufreader) (rem : str) : Prop :=
  (exists cs l, br_in b = map Data cs ++ Data (l ++ extra) :: rest /\ Forall (fun c => c <> []) cs /\ l <> [] /\
     length (l ++ extra) <= br_cap b /\ rem = br_buf b ++ concat cs ++ l) \/
  (br_in b = rest /\ br_buf b = rem ++ extra).

Lemma shelf_fill extra rest b rem : 0 < br_cap b -> shelf extra rest b rem -> rem <> [] ->
  exists d b1, br_fill b = (Ok d, b1) /\ d <> [] /\ br_buf b1 = d /\ br_cap b1 = br_cap b /\
    ((exists cs l, br_in b1 = map Data cs ++ Data (l ++ extra) :: rest /\ Forall (fun c => c <> []) cs /\ l <> [] /\
       length (l ++ extra) <= br_cap b /\ rem = d ++ concat cs ++ l) \/
     (br_in b1 = rest /\ d = rem ++ extra)).
Proof.
  intros Hcap Hs Hne. destruct b as [buf cap s]. unfold br_fill, shelf in *. cbn [br_buf br_cap br_in] in *.
  destruct buf as [|x buf].
  - destruct Hs as [(cs & l & -> & Hcs & Hl & Hle & ->) | [-> E]].
    2: { symmetry in E. apply app_eq_nil in E as [-> _]. congruence. }
    destruct cs as [|c cs]; cbn [map app concat raw_read] in *.
    + rewrite skipn_all2 by lia. exists (l ++ extra). eexists. split; [reflexivity|]. split; [destruct l; [congruence|discriminate]|].
      split; [reflexivity|]. split; [reflexivity|]. right. split; reflexivity.
    + inversion Hcs as [|? ? Hc Hcs']; subst. destruct (skipn cap c) as [|y c'] eqn:Es.
      * eexists. eexists. split; [reflexivity|]. split; [assumption|]. split; [reflexivity|]. split; [reflexivity|]. left.
        exists cs, l. cbn [br_in]. repeat split; auto. now rewrite app_assoc.
      * eexists. eexists. split; [reflexivity|]. split. { destruct cap; [lia|]. destruct c; [congruence|discriminate]. }
        split; [reflexivity|]. split; [reflexivity|]. left. exists ((y :: c') :: cs), l. cbn [br_in map app concat]. repeat split; auto.
        -- constructor; [discriminate|assumption].
        -- transitivity ((firstn cap c ++ skipn cap c) ++ concat cs ++ l); [now rewrite firstn_skipn, app_assoc|].
           rewrite Es, <- !app_assoc. reflexivity.
  - eexists. eexists. split; [reflexivity|]. split; [discriminate|]. split; [reflexivity|]. split; [reflexivity|].
    destruct Hs as [(cs & l & -> & Hcs & Hl & Hle & ->) | [-> E]].
    + left. exists cs, l. repeat split; auto.
    + right. split; [reflexivity|exact E].
Qed.

Lemma upto_first c l r : ~ In c l -> upto c (l ++ c :: r) = Some (S (length l)).
Proof.
  induction l as [|x l IH]; intros H; cbn [app upto length].
  - now rewrite byte_eqb_refl.
  - destruct (byte_eqb x c) eqn:E; [apply byte_eqb_eq in E as ->; exfalso; apply H; now left|].
    rewrite IH; [reflexivity|]. intros Hin. apply H. now right.
Qed.

Lemma shelf_until_loop extra rest fuel acc b l r x b' : 0 < br_cap b -> shelf extra rest b (l ++ x0a :: r) -> ~ In x0a l ->
  read_until_loop fuel x0a acc b = (Ok x, b') -> shelf extra rest b' r /\ br_cap b' = br_cap b.
Proof.
  revert acc b l. induction fuel as [|fuel IH]; intros acc b l Hcap Hs Hl; cbn [read_until_loop]; [discriminate|].
  destruct (shelf_fill extra rest b _ Hcap Hs) as (d & b1 & -> & Hd & Hb & Hc1 & Hst); [now destruct l|].
  assert (forall l1 r1, d = l1 ++ x0a :: r1 -> ~ In x0a l1 -> skipn (S (length l1)) d = r1) as Hskip.
  { intros l1 r1 -> _. change (l1 ++ x0a :: r1) with (l1 ++ [x0a] ++ r1). rewrite app_assoc.
    replace (S (length l1)) with (length (l1 ++ [x0a])) by (rewrite app_length; cbn; lia). now rewrite skipn_app, skipn_all, Nat.sub_diag. }
  destruct Hst as [(cs & q & Hin & Hcs & Hq & Hle & E) | [Hin ->]].
  - destruct (upto x0a d) as [n|] eqn:Eu.
    + apply upto_some in Eu as (l1 & r1 & -> & Hl1 & ->). intros [= <- <-]. split; [|exact Hc1].
      assert (l = l1 /\ r = r1 ++ concat cs ++ q) as [-> ->].
      { clear -E Hl Hl1. revert l1 E Hl1. induction l as [|a l IH]; intros [|a1 l1] E Hl1; cbn [app] in E; [inversion E; subst|injection E as Ea E; subst|injection E as Ea E; subst|injection E as Ea E; subst].
        - auto.
        - exfalso. apply Hl1. now left.
        - exfalso. apply Hl. now left.
        - destruct (IH (fun H => Hl (or_intror H)) l1 E (fun H => Hl1 (or_intror H))) as [-> ->]. auto. }
      left. exists cs, q. cbn [br_in br_buf br_cap]. rewrite Hc1. repeat split; auto. f_equal. symmetry. exact (Hskip l1 r1 eq_refl Hl1).
    + apply upto_none in Eu. destruct d as [|y d]; [congruence|]. intros H.
      assert (exists l2, l = (y :: d) ++ l2 /\ l2 ++ x0a :: r = concat cs ++ q) as (l2 & -> & E2).
      { clear -E Eu. revert l E. induction (y :: d) as [|a ds IH]; intros l E; [exists l; auto|].
        destruct l as [|a1 l]; cbn [app] in E; injection E as <- E.
        - exfalso. apply Eu. now left.
        - destruct (IH (fun H => Eu (or_intror H)) l E) as (l2 & -> & E2). exists l2. auto. }
      destruct (fun a b c => IH (acc ++ y :: d) (BR [] (br_cap b1) (br_in b1)) l2 a b c H) as [H1 H2]; [cbn; lia| | |].
      * left. exists cs, q. cbn [br_in br_buf br_cap]. rewrite Hc1, Hin. repeat split; auto.
      * intros Hx. apply Hl. apply in_or_app. now right.
      * split; [exact H1|]. cbn [br_cap] in H2. congruence.
  - rewrite <- app_assoc. cbn [app]. rewrite upto_first by assumption. intros [= <- <-]. split; [|exact Hc1].
    right. cbn [br_in br_buf]. split; [exact Hin|]. rewrite <- app_assoc in Hskip. exact (Hskip l (r ++ extra) eq_refl Hl).
Qed.

Lemma shelf_head_loop extra rest fuel buf h b x b' : 0 < br_cap b -> shelf extra rest b h -> h <> [] -> complete_head (buf ++ h) ->
  head_loop fuel buf b = (Ok (Some x), b') -> shelf extra rest b' [] .
Proof.
  revert buf h b. induction fuel as [|fuel IH]; intros buf h b Hcap Hs Hne Hc; cbn [head_loop]; [discriminate|].
  destruct Hc as [(p & Hp) Hmin].
  assert (In x0a h) as Hin.
  { destruct (exists_last Hne) as (h' & c & ->). rewrite app_assoc in Hp.
    replace (p ++ CRLF ++ CRLF) with ((p ++ [x0d; x0a; x0d]) ++ [x0a]) in Hp by (rewrite <- app_assoc; reflexivity).
    apply app_inj_tail in Hp as [_ ->]. apply in_or_app. right. now left. }
  destruct (first_lf h Hin) as (l & r & -> & Hl).
  destruct (read_until x0a b) as [[x1|e| |] b1] eqn:E; try discriminate.
  assert (x1 = l ++ [x0a]) as ->.
  { destruct Hs as [(cs & q & Hbin & Hcs & Hq & Hle & Er) | [Hbin Hbuf]].
    - assert (rep false b (l ++ x0a :: (r ++ extra)) rest) as Hrep.
      { exists (concat (cs ++ [q ++ extra])). split.
        - rewrite concat_app. cbn [concat]. rewrite app_nil_r. transitivity ((l ++ x0a :: r) ++ extra); [now rewrite <- app_assoc|].
          rewrite Er, <- !app_assoc. reflexivity.
        - rewrite Hbin. replace (map Data cs ++ Data (q ++ extra) :: rest) with (map Data (cs ++ [q ++ extra]) ++ rest) by (rewrite map_app, <- app_assoc; reflexivity).
          apply delivers_chunks. apply Forall_app. split; [assumption|]. constructor; [destruct q; [congruence|discriminate]|constructor]. }
      destruct (read_until_found x0a b l (r ++ extra) rest Hrep Hl Hcap) as (b2 & E2 & _). congruence.
    - assert (rep false b (l ++ x0a :: (r ++ extra)) rest) as Hrep.
      { exists []. rewrite app_nil_r. split; [rewrite Hbuf, <- app_assoc; reflexivity|]. rewrite Hbin. constructor. }
      destruct (read_until_found x0a b l (r ++ extra) rest Hrep Hl Hcap) as (b2 & E2 & _). congruence. }
  destruct (shelf_until_loop extra rest _ _ _ _ _ _ _ Hcap Hs Hl E) as [Hs1 Hc1].
  destruct (l ++ [x0a]) as [|y l'] eqn:El; [now destruct l|]. rewrite <- El.
  destruct (ends_head (buf ++ l ++ [x0a])) eqn:Eh.
  - intros [= <- <-]. apply ends_head_spec in Eh as (q & Eq).
    assert (r = []) as ->; [|assumption].
    apply (Hmin q r). replace (buf ++ l ++ x0a :: r) with ((buf ++ l ++ [x0a]) ++ r) by (rewrite <- !app_assoc; reflexivity).
    rewrite Eq, <- !app_assoc. reflexivity.
  - intros H. apply (IH (buf ++ l ++ [x0a]) r b1) with (5 := H).
    + lia.
    + exact Hs1.
    + intros ->. assert (ends_head (buf ++ l ++ [x0a]) = true) by (apply ends_head_spec; eauto). congruence.
    + replace ((buf ++ l ++ [x0a]) ++ r) with (buf ++ l ++ x0a :: r) by (rewrite <- !app_assoc; reflexivity). split; eauto.
Qed.

(** What a handler finds on the socket behind the request is [rest]. *)
Lemma handshake_edge {U} (ev : env U) cs l extra rest head r :
  concat cs ++ l = head -> complete_head head -> Forall (fun c => c <> []) cs -> l <> [] -> length (l ++ extra) <= N.to_nat 10000 ->
  request_parse ev (map Data cs ++ Data (l ++ extra) :: rest) = Ok (Some r) -> handler_stream r = rest.
Proof.
  intros Hh Hc Hcs Hl Hle. unfold request_parse.
  assert (shelf extra rest (BR [] (N.to_nat 10000) (map Data cs ++ Data (l ++ extra) :: rest)) head) as Hs.
  { left. exists cs, l. cbn [br_in br_buf br_cap app]. repeat split; auto. }
  destruct (read_head _) as [[[h|]|e| |] rd] eqn:E; try discriminate.
  assert (shelf extra rest rd []) as Hs'.
  { unfold read_head in E. eapply (shelf_head_loop extra rest _ [] head) with (2 := Hs); [cbn [br_cap]; lia| |exact Hc|exact E].
    destruct Hc as [(p & ->) _]. destruct p; discriminate. }
  assert (br_in rd = rest) as Hin.
  { destruct Hs' as [(cs' & l' & _ & _ & Hl' & _ & E') | [E' _]]; [|exact E'].
    symmetry in E'. apply app_eq_nil in E' as [_ E']. apply app_eq_nil in E' as [_ E']. congruence. }
  unfold request_of_head. destruct (hq_status _); try discriminate;
  (destruct (hq_method _); [|discriminate]; destruct (insert_headers _ _); [|discriminate];
   destruct (find_header (bs "host") _); [|discriminate]; destruct (hq_path _); [|discriminate];
   destruct (request_url _ _ _ _); [|discriminate]; intros [= <-]; exact Hin).
Qed.

Lemma upgraded_socket {U} hash sz (r : request U) budget out ws : stream_upgrade hash sz r budget = (out, Ok (Some ws)) ->
  ws = ws_new (handler_stream r) (budget_left budget out).
Proof.
  unfold stream_upgrade, perform_upgrade. destruct (should_upgrade r).
  - destruct (get (bs "Sec-WebSocket-Key") _) as [key|];
      (destruct (write_response _ _ _) as [o [u|e| |]]; cbn [res_map]; try discriminate; intros [= <- <-]; reflexivity).
  - destruct (write_response _ _ _) as [o [u|e| |]]; cbn [res_map]; discriminate.
Qed.

(** The handshake looks at a request's headers and at the socket behind it. *)
Lemma upgrade_congr {U} hash sz (r1 r2 : request U) budget : rq_headers r1 = rq_headers r2 -> handler_stream r1 = handler_stream r2 ->
  stream_upgrade hash sz r1 budget = stream_upgrade hash sz r2 budget.
Proof. intros H1 H2. unfold stream_upgrade, perform_upgrade, should_upgrade. now rewrite H1, H2. Qed.
