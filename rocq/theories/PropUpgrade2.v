(** The handshake: exactly what is lost behind it. *)
From Verif Require Import Base HMap Io IoProofs HttpModel HttpSpec HttpProofs HttpProofs3 HttpLemmas HttpLemmas2 WsModel WsSpec WsBridge WsLemmas WsProofs3 UpgradeModel UpgradeProofs UpgradeLoss PropUpgrade Sha1.

(** ** C69, exactly. The head of the request arrives in segments [cs] and [l]; the segment with its last byte also
    carries [extra] (up to the 10000 bytes a request reads at once). Then the WebSocket behaves as if [extra] had
    never been sent: it goes on with the segments behind. *)
Theorem C69_early_bytes_lost : forall U (ev : env U) hash sz cs l extra rest r budget out ws,
  complete_head (concat cs ++ l) -> Forall (fun c => c <> []) cs -> l <> [] -> length (l ++ extra) <= N.to_nat 10000 ->
  request_parse ev (map Data cs ++ Data (l ++ extra) :: rest) = Ok (Some r) ->
  stream_upgrade hash sz r budget = (out, Ok (Some ws)) ->
  ws = ws_new rest (budget_left budget out) /\
  exists r0 ws0, request_parse ev (map Data cs ++ Data l :: rest) = Ok (Some r0) /\ stream_upgrade hash sz r0 budget = (out, Ok (Some ws0)) /\ ws0 = ws.
Proof.
  intros U ev hash sz cs l extra rest r budget out ws Hc Hcs Hl Hle Hp Hup.
  pose proof (handshake_edge ev cs l extra rest _ r eq_refl Hc Hcs Hl Hle Hp) as Hs.
  pose proof (upgraded_socket _ _ _ _ _ _ Hup) as Hw. rewrite Hs in Hw. split; [exact Hw|].
  assert (forall x, x <> [] -> delivers false (map Data cs ++ Data x :: rest) (concat cs ++ x) rest) as D.
  { intros x Hx. replace (map Data cs ++ Data x :: rest) with (map Data (cs ++ [x]) ++ rest) by (rewrite map_app, <- app_assoc; reflexivity).
    replace (concat cs ++ x) with (concat (cs ++ [x])) by (rewrite concat_app; cbn; now rewrite app_nil_r).
    apply delivers_chunks. apply Forall_app. split; [assumption|]. constructor; [assumption|constructor]. }
  destruct (@request_parse_head false U ev (map Data cs ++ Data (l ++ extra) :: rest) (concat cs ++ l) extra rest) as (rd & E & _).
  { rewrite <- app_assoc. apply D. destruct l; [congruence|discriminate]. }
  { exact Hc. }
  destruct (@request_parse_head false U ev (map Data cs ++ Data l :: rest) (concat cs ++ l) [] rest) as (rd0 & E0 & _).
  { rewrite app_nil_r. apply D. assumption. }
  { exact Hc. }
  rewrite Hp in E. symmetry in E. unfold request_of_head in E.
  destruct (hq_status _) eqn:Eq1 in E; try discriminate E;
  (destruct (hq_method _) eqn:Eq2 in E; [|discriminate E]; destruct (insert_headers _ _) eqn:Eq3 in E; [|discriminate E];
   destruct (find_header (bs "host") _) eqn:Eq4 in E; [|discriminate E]; destruct (hq_path _) eqn:Eq5 in E; [|discriminate E];
   destruct (request_url _ _ _ _) eqn:Eq6 in E; [|discriminate E]; injection E as <-;
   pose proof E0 as E1; unfold request_of_head in E1; rewrite Eq1, Eq2, Eq3, Eq4, Eq5, Eq6 in E1;
   eexists; exists ws; split; [exact E1|]; split; [|reflexivity];
   rewrite <- Hup; apply upgrade_congr; [reflexivity|]; rewrite Hs;
   rewrite <- (app_nil_r l) in E1; refine (handshake_edge ev cs l [] rest _ _ eq_refl Hc Hcs Hl _ E1);
   rewrite app_nil_r; rewrite app_length in Hle; lia).
Qed.
Print Assumptions C69_early_bytes_lost.

Lemma handshake_text_complete : complete_head handshake_text.
Proof.
  apply request_head_complete. split; [discriminate|]. split; [apply tchars_lit; vm_compute; reflexivity|]. split; [discriminate|].
  split; [apply targets_lit; vm_compute; reflexivity|]. split; [|cbn; lia]. apply Forall_map.
  eapply Forall_impl; [|apply fields_lit; vm_compute; reflexivity]. now intros kv [H _].
Qed.
(** Not vacuous: the handshake and a frame in one segment; the frame in the next segment is the first one read. *)
Example C69_lost_example : exists r ws,
  complete_head (concat [firstn 30 handshake_text] ++ skipn 30 handshake_text) /\
  length (skipn 30 handshake_text ++ rfc_encode Len7 hello_frame) <= N.to_nat 10000 /\
  request_parse (demo_env (fun m => m)) ([Data (firstn 30 handshake_text)] ++
    Data (skipn 30 handshake_text ++ rfc_encode Len7 hello_frame) :: [Data (rfc_encode Len7 hello_frame)]) = Ok (Some r) /\
  stream_upgrade sha1 sz1 r None = (text_101 (bs "s3pPLMBiTxaQ9kYGzzhZRbK+xOo="), Ok (Some ws)) /\
  ws = ws_new [Data (rfc_encode Len7 hello_frame)] None /\ fst (ws_next m32 ws) = Ok (Text (bs "hello")).
Proof.
  eexists. eexists. split.
  { cbn [concat]. rewrite app_nil_r, firstn_skipn. apply handshake_text_complete. }
  split; [apply Nat.leb_le; vm_compute; reflexivity|].
  split; [vm_compute; reflexivity|]. split; [vm_compute; reflexivity|]. split; [reflexivity|]. vm_compute. reflexivity.
Qed.
