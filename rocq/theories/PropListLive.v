(** C126: every connection to the list server is answered, whatever the others do. *)
From Verif Require Import Base HMap Num Utf8 Io IoProofs HttpModel HttpSpec RouterModel RouterProofs UpgradeProofs ListModel ListRace Fair PropList PropList2 PropListRace HttpLemmas2 PropServe.
From Coq Require Import Lia.

(** ** Specification *)
(** Connection [i] has ended in [w]. *)
Definition has_ended (w : mworld) (i : nat) : Prop := exists s b out e, nth_error (r_conns (m_world w)) i = Some (Conn s b (Ended out e)).

(** ** Proof *)
Definition stage_of (w : mworld) (i : nat) : option stage := option_map c_stage (nth_error (r_conns (m_world w)) i).
Definition box_ok (w : mworld) : Prop := NoDup (m_box w) /\ forall i, In i (m_box w) <-> exists m, stage_of w i = Some (Waiting m).
Lemma stage_mid (l1 : list conn) x l2 i items box :
  stage_of (MWorld (RWorld items (l1 ++ x :: l2)) box) i = if i =? length l1 then Some (c_stage x) else option_map c_stage (nth_error (l1 ++ x :: l2) i).
Proof.
  unfold stage_of. cbn [m_world r_conns]. destruct (Nat.eqb_spec i (length l1)) as [->|H]; [now rewrite nth_here|reflexivity].
Qed.
Lemma mid_else {A} (l1 : list A) x y l2 i : i <> length l1 -> nth_error (l1 ++ x :: l2) i = nth_error (l1 ++ y :: l2) i.
Proof.
  intros H. destruct (Nat.lt_ge_cases i (length l1)) as [Hl|Hl]; [now rewrite !nth_error_app1 by exact Hl|]. rewrite !nth_error_app2 by lia. destruct (i - length l1) eqn:E; [lia|reflexivity].
Qed.
(** The effect of a step on the stage of connection [i], and on the mailbox. *)
Lemma step_stage {U} (ev : env U) im sz pg w w' : mail_step ev im sz pg w w' ->
  (exists j st st', (forall i, stage_of w' i = if i =? j then st' else stage_of w i) /\ stage_of w j = st /\
    ((st = None /\ st' = Some Begun /\ m_box w' = m_box w) \/
     (exists m, st = Some Begun /\ st' = Some (Waiting m) /\ m_box w' = m_box w ++ [j]) \/
     (exists out e, (st = Some Begun \/ exists r, st = Some (Got r)) /\ st' = Some (Ended out e) /\ m_box w' = m_box w) \/
     (exists m r, st = Some (Waiting m) /\ st' = Some (Got r) /\ m_box w = j :: m_box w'))).
Proof.
  intros [H|[[i H]|H]].
  - destruct H as [items cs s b box]. exists (length cs), None, (Some Begun). split; [|split].
    + intros i. unfold stage_of. cbn [m_world r_conns]. destruct (Nat.eqb_spec i (length cs)) as [->|Hn]; [now rewrite nth_here|].
      destruct (Nat.lt_ge_cases i (length cs)) as [Hl|Hl]; [now rewrite nth_error_app1 by exact Hl|].
      rewrite (proj2 (nth_error_None (cs ++ _) i)) by (rewrite app_length; cbn; lia). now rewrite (proj2 (nth_error_None cs i)) by lia.
    + unfold stage_of. cbn [m_world r_conns]. now rewrite (proj2 (nth_error_None cs (length cs))) by lia.
    + left. auto.
  - destruct H as [items l1 s b m l2 box Hl Ea|items l1 s b out e l2 box Hl Ea Eo|items l1 s b r out e l2 box Hl Eo]; subst i; exists (length l1).
    + exists (Some Begun), (Some (Waiting m)). split; [|split].
      * intros i. rewrite !stage_mid. destruct (Nat.eqb_spec i (length l1)) as [->|Hn]; [reflexivity|]. now rewrite (mid_else l1 _ (Conn s b Begun)).
      * rewrite stage_mid. now rewrite Nat.eqb_refl.
      * right. left. exists m. auto.
    + exists (Some Begun), (Some (Ended out e)). split; [|split].
      * intros i. rewrite !stage_mid. destruct (Nat.eqb_spec i (length l1)) as [->|Hn]; [reflexivity|]. now rewrite (mid_else l1 _ (Conn s b Begun)).
      * rewrite stage_mid. now rewrite Nat.eqb_refl.
      * right. right. left. exists out, e. auto.
    + exists (Some (Got r)), (Some (Ended out e)). split; [|split].
      * intros i. rewrite !stage_mid. destruct (Nat.eqb_spec i (length l1)) as [->|Hn]; [reflexivity|]. now rewrite (mid_else l1 _ (Conn s b (Got r))).
      * rewrite stage_mid. now rewrite Nat.eqb_refl.
      * right. right. left. exists out, e. split; [right; eauto|auto].
  - destruct H as [items l1 s b m items' r l2 box Eh]. exists (length l1), (Some (Waiting m)), (Some (Got r)). split; [|split].
    + intros i. rewrite !stage_mid. destruct (Nat.eqb_spec i (length l1)) as [->|Hn]; [reflexivity|]. now rewrite (mid_else l1 _ (Conn s b (Waiting m))).
    + rewrite stage_mid. now rewrite Nat.eqb_refl.
    + right. right. right. exists m, r. auto.
Qed.
Lemma box_ok_step {U} (ev : env U) im sz pg w w' : box_ok w -> mail_step ev im sz pg w w' -> box_ok w'.
Proof.
  intros [N B] T. destruct (step_stage ev im sz pg w w' T) as (j & st & st' & Hs & Hj & Hc).
  assert (forall i, i <> j -> stage_of w' i = stage_of w i) as Ho by (intros i Hi; rewrite Hs; now destruct (Nat.eqb_spec i j)).
  assert (stage_of w' j = st') as Hj' by (rewrite Hs; now rewrite Nat.eqb_refl).
  destruct Hc as [(-> & -> & Eb)|[(m & -> & -> & Eb)|[(out & e & Hst & -> & Eb)|(m & r & -> & -> & Eb)]]].
  - split; rewrite Eb; [exact N|]. intros i. rewrite B. destruct (Nat.eq_dec i j) as [->|Hi]; [rewrite Hj, Hj'; split; intros [m Hm]; discriminate|now rewrite Ho].
  - split; rewrite Eb.
    + apply NoDup_snoc; [exact N|]. rewrite B, Hj. intros [m' Hm]. discriminate.
    + intros i. rewrite in_app_iff, B. cbn [In]. destruct (Nat.eq_dec i j) as [->|Hi]; [rewrite Hj'; split; [eauto|auto]|rewrite Ho by exact Hi; split; [intros [H|[H|[]]]; [exact H|congruence]|auto]].
  - split; rewrite Eb; [exact N|]. intros i. rewrite B. destruct (Nat.eq_dec i j) as [->|Hi]; [|now rewrite Ho]. rewrite Hj, Hj'. split; intros [m Hm]; [|discriminate]. destruct Hst as [->|[r ->]]; discriminate.
  - rewrite Eb in N, B. inversion N as [|? ? Nj N']; subst. split; [exact N'|]. intros i. destruct (Nat.eq_dec i j) as [->|Hi].
    + rewrite Hj'. split; [contradiction|intros [m' Hm]; discriminate].
    + rewrite Ho by exact Hi. rewrite <- B. cbn [In]. split; [auto|intros [H|H]; [congruence|exact H]].
Qed.
Lemma box_ok_run {U} (ev : env U) im sz pg r : execution mail_init (mail_step ev im sz pg) r -> forall n, box_ok (r n).
Proof.
  intros [H0 HS]. induction n as [|n IH].
  - rewrite H0. split; [constructor|]. intros i. cbn [m_box mail_init In]. split; [intros []|]. intros [m H]. destruct i; discriminate.
  - destruct (HS n) as [->|T]; [exact IH|]. now apply (box_ok_step ev im sz pg (r n)).
Qed.
(** How far a connection has got. *)
Definition progress (w : mworld) (i : nat) : nat := match stage_of w i with None => 0 | Some Begun => 1 | Some (Waiting _) => 2 | Some (Got _) => 3 | Some (Ended _ _) => 4 end.
Lemma progress_step {U} (ev : env U) im sz pg w w' i : mail_step ev im sz pg w w' -> progress w i <= progress w' i.
Proof.
  intros T. destruct (step_stage ev im sz pg w w' T) as (j & st & st' & Hs & Hj & Hc). unfold progress. rewrite Hs. destruct (Nat.eqb_spec i j) as [->|_]; [|reflexivity]. rewrite Hj.
  destruct Hc as [(-> & -> & _)|[(m & -> & -> & _)|[(out & e & [->|[r ->]] & -> & _)|(m & r & -> & -> & _)]]]; lia.
Qed.
Lemma stage_split w i st : stage_of w i = Some st -> exists l1 s b l2, m_world w = RWorld (r_items (m_world w)) (l1 ++ Conn s b st :: l2) /\ length l1 = i.
Proof.
  unfold stage_of. destruct w as [[items cs] box]. cbn [m_world r_conns r_items]. destruct (nth_error cs i) as [[s b st']|] eqn:E; [|discriminate]. cbn [option_map c_stage]. intros [= ->].
  apply nth_error_split in E as (l1 & l2 & -> & Hl). exists l1, s, b, l2. now split.
Qed.
Lemma conn_ready {U} (ev : env U) im sz pg w i : stage_of w i = Some Begun \/ (exists r, stage_of w i = Some (Got r)) -> exists w', conn_step ev im sz pg i w w'.
Proof.
  intros [H|[r H]]; apply stage_split in H as (l1 & s & b & l2 & E & Hl); destruct w as [w box]; cbn [m_world] in E; rewrite E.
  - destruct (conn_asks ev im sz s b) as [m|] eqn:Ea; [eexists; now apply (m_asks ev im sz pg i _ l1 s b m)|]. destruct (conn_answers ev im sz pg s None b) as [out e] eqn:Eo. eexists. now apply (m_alone ev im sz pg i _ l1 s b out e).
  - destruct (conn_answers ev im sz pg s (Some r) b) as [out e] eqn:Eo. eexists. now apply (m_answers ev im sz pg i _ l1 s b r out e).
Qed.
Lemma conn_advances {U} (ev : env U) im sz pg w w' i : conn_step ev im sz pg i w w' -> progress w i < progress w' i.
Proof.
  intros T. destruct T as [items l1 s b m l2 box <- _|items l1 s b out e l2 box <- _ _|items l1 s b r out e l2 box <- _]; unfold progress; rewrite !stage_mid, !Nat.eqb_refl; cbn [c_stage]; lia.
Qed.
Lemma list_ready w i box : box_ok w -> m_box w = i :: box -> exists w', list_step w w'.
Proof.
  intros [_ B] E. assert (exists m, stage_of w i = Some (Waiting m)) as [m H] by (apply B; rewrite E; now left).
  apply stage_split in H as (l1 & s & b & l2 & Ew & Hl). destruct w as [w bx]. cbn [m_world m_box] in *. subst i bx. rewrite Ew. destruct (list_handle (r_items w) m) as [items' r] eqn:Eh. eexists. now apply (m_handles _ l1 s b m items' r).
Qed.
(** The number of requests in front of [i]'s. *)
Fixpoint ahead (i : nat) (box : list nat) : nat := match box with [] => 0 | j :: box' => if j =? i then 0 else S (ahead i box') end.
Lemma ahead_app i box more : In i box -> ahead i (box ++ more) = ahead i box.
Proof. induction box as [|j box IH]; intros H; [destruct H|]. cbn [app ahead]. destruct (Nat.eqb_spec j i) as [|Hn]; [reflexivity|]. destruct H as [->|H]; [contradiction|]. now rewrite IH. Qed.
(** The wait of [i]: 0 if it waits with [P] or more requests in front; [P + 1] when it no longer waits. *)
Definition served (P : nat) (w : mworld) (i : nat) : nat := match stage_of w i with Some (Waiting _) => P - ahead i (m_box w) | _ => S P end.

Lemma ends {U} (ev : env U) im sz pg r i : execution mail_init (mail_step ev im sz pg) r -> fair list_step r -> fair (conn_step ev im sz pg i) r ->
  forall n, i < length (r_conns (m_world (r n))) -> exists m, n <= m /\ has_ended (r m) i.
Proof.
  intros X FL FC n Hi. pose proof (box_ok_run ev im sz pg r X) as B. destruct X as [_ HS].
  assert (forall m, progress (r m) i <= progress (r (S m)) i) as MP.
  { intros m. destruct (HS m) as [->|T]; [reflexivity|]. exact (progress_step ev im sz pg _ _ i T). }
  assert (forall a b, a <= b -> progress (r a) i <= progress (r b) i) as MM.
  { intros a b. induction 1 as [|b _ IH]; [reflexivity|]. etransitivity; [exact IH|apply MP]. }
  assert (1 <= progress (r n) i) as P1.
  { unfold progress, stage_of. destruct (nth_error (r_conns (m_world (r n))) i) as [[s b []]|] eqn:E; cbn [option_map c_stage]; try lia. apply nth_error_None in E. lia. }
  (* it asks, or ends *)
  destruct (fair_reaches (conn_step ev im sz pg i) r (fun w => progress w i) 2 n FC) as (m1 & Hm1 & P2).
  { intros m _. apply MP. }
  { intros m Hm Hlt. apply conn_ready. left. specialize (MM n m Hm). unfold progress in *. destruct (stage_of (r m) i) as [[]|]; try lia. reflexivity. }
  { intros m _. apply conn_advances. }
  (* the list process replies *)
  assert (exists m2, m1 <= m2 /\ 3 <= progress (r m2) i) as (m2 & Hm2 & P3).
  { destruct (Nat.le_gt_cases 3 (progress (r m1) i)) as [H|H]; [eauto|].
    set (P := ahead i (m_box (r m1))).
    assert (forall m, m1 <= m -> (3 <= progress (r m) i) \/ ((exists q, stage_of (r m) i = Some (Waiting q)) /\ In i (m_box (r m)))) as W.
    { intros m Hm. destruct (Nat.le_gt_cases 3 (progress (r m) i)) as [Hp|Hp]; [now left|]. right. specialize (MM m1 m Hm).
      assert (exists q, stage_of (r m) i = Some (Waiting q)) as Hq by (unfold progress in *; destruct (stage_of (r m) i) as [[]|]; try lia; eauto). split; [exact Hq|]. now apply (proj2 (B m)). }
    assert (forall m, m1 <= m -> served P (r m) i <= S P) as Top by (intros m _; unfold served; destruct (stage_of (r m) i) as [[]|]; lia).
    assert (forall m, m1 <= m -> ahead i (m_box (r m)) <= P \/ 3 <= progress (r m) i) as A.
    { intros m. induction 1 as [|m Hm IH]; [now left|]. specialize (W m Hm). destruct W as [W|[[q Hq] Hin]]; [right; specialize (MP m); lia|]. destruct IH as [IH|IH]; [|right; specialize (MP m); lia].
      destruct (HS m) as [->|T]; [now left|]. destruct (step_stage ev im sz pg _ _ T) as (j & st & st' & Hs & Hj & Hc).
      destruct Hc as [(_ & _ & ->)|[(q' & _ & _ & ->)|[(out & e & _ & _ & ->)|(q' & rr & _ & -> & Eb)]]]; try (now left).
      - left. now rewrite ahead_app.
      - rewrite Eb in IH. cbn [ahead] in IH. destruct (Nat.eqb_spec j i) as [Ej|Hn]; [|left; lia]. right. unfold progress. rewrite Hs, Ej, Nat.eqb_refl. lia. }
    destruct (fair_reaches_below list_step r (fun w => served P w i) (S P) m1 FL) as (m2 & Hm2 & HK).
    - intros m Hm. destruct (HS m) as [->|T]; [reflexivity|]. destruct (W (S m) ltac:(lia)) as [Hp|[[q Hq] Hin]].
      { etransitivity; [exact (Top m Hm)|]. unfold served, progress in *. destruct (stage_of (r (S m)) i) as [[]|]; lia. }
      destruct (step_stage ev im sz pg _ _ T) as (j & st & st' & Hs & Hj & Hc). unfold served. rewrite Hq. rewrite Hs in Hq.
      assert (progress (r m) i <= 2) as Hle by (specialize (MP m); unfold progress in MP at 2; rewrite Hs, Hq in MP; exact MP).
      destruct (W m Hm) as [Hp|[[q' Hq'] Hin']]; [lia|]. rewrite Hq'.
      destruct Hc as [(_ & _ & ->)|[(q2 & _ & _ & ->)|[(out & e & _ & _ & ->)|(q2 & rr & _ & -> & Eb)]]]; try reflexivity.
      + now rewrite ahead_app.
      + rewrite Eb. cbn [ahead]. destruct (Nat.eqb_spec j i) as [Ej|Hn]; [|lia]. rewrite Ej, Nat.eqb_refl in Hq. discriminate.
    - intros m Hm Hlt. destruct (W m Hm) as [Hp|[_ Hin]]; [unfold served, progress in *; destruct (stage_of (r m) i) as [[]|]; lia|].
      destruct (m_box (r m)) as [|k bx] eqn:E; [destruct Hin|]. exact (list_ready (r m) k bx (B m) E).
    - intros m Hm Hlt T. assert (mail_step ev im sz pg (r m) (r (S m))) as T' by (right; now right).
      destruct (W m Hm) as [Hp|[[q Hq] Hin]]; [unfold served, progress in *; destruct (stage_of (r m) i) as [[]|]; lia|].
      destruct (W (S m) ltac:(lia)) as [Hp|[[q' Hq'] Hin']].
      { unfold served, progress in *. destruct (stage_of (r (S m)) i) as [[]|]; lia. }
      assert (exists j, m_box (r m) = j :: m_box (r (S m))) as [j Eb] by (destruct T; cbn [m_box]; eauto).
      unfold served. rewrite Hq, Hq', Eb. cbn [ahead]. destruct (Nat.eqb_spec j i) as [Ej|Hn].
      + pose proof (proj1 (B m)) as ND. rewrite Eb in ND. inversion ND as [|? ? Nj _]. now rewrite Ej in Nj.
      + destruct (A m Hm) as [HA|HA]; [|unfold progress in HA; rewrite Hq in HA; lia]. rewrite Eb in HA. cbn [ahead] in HA. destruct (Nat.eqb_spec j i); [contradiction|lia].
    - exists m2. split; [exact Hm2|]. destruct (W m2 Hm2) as [Hp|[[q Hq] Hin]]; [exact Hp|]. unfold served in HK. rewrite Hq in HK. lia. }
  (* it ends *)
  destruct (fair_reaches_below (conn_step ev im sz pg i) r (fun w => progress w i) 4 m2 FC) as (m3 & Hm3 & P4).
  { intros m _. apply MP. }
  { intros m Hm Hlt. apply conn_ready. right. specialize (MM m2 m Hm). unfold progress in *. destruct (stage_of (r m) i) as [[]|]; try lia. eauto. }
  { intros m _ _. apply conn_advances. }
  exists m3. split; [lia|]. unfold progress, stage_of, has_ended in *. destruct (nth_error (r_conns (m_world (r m3))) i) as [[s b []]|]; cbn [option_map c_stage] in P4; try lia. eauto.
Qed.
Lemma mail_race {U} (ev : env U) im sz pg w w' : mail_step ev im sz pg w w' -> race_step ev im sz pg (m_world w) (m_world w').
Proof.
  intros [H|[[i H]|H]]; destruct H; cbn [m_world]; [apply accepts|now apply asks|now apply alone|now apply answers|now apply handles].
Qed.

(** ** C126 *)
(** If the process of a connection and the process with the list are scheduled fairly, the connection ends, whatever other connections do, even if
    they stay where they are for ever. *)
Theorem C126_every_connection_ends : forall U (ev : env U) im sz pg r i, execution mail_init (mail_step ev im sz pg) r ->
  fair list_step r -> fair (conn_step ev im sz pg i) r ->
  forall n, i < length (r_conns (m_world (r n))) -> exists m, n <= m /\ has_ended (r m) i.
Proof. exact @ends. Qed.
Print Assumptions C126_every_connection_ends.
(** These executions are among those of C125, so its orders exist at every moment, and every ended connection is in them with its answer. *)
Theorem C126_and_rightly : forall U (ev : env U) im sz pg r, execution mail_init (mail_step ev im sz pg) r ->
  forall n, exists order, in_order ev im sz pg (m_world (r n)) order.
Proof.
  intros U ev im sz pg r [H0 HS] n. apply C125_one_after_another. induction n as [|n IH]; [rewrite H0; apply no_step|].
  destruct (HS n) as [->|T]; [exact IH|]. exact (more_steps _ _ _ _ _ _ _ IH (mail_race ev im sz pg _ _ T)).
Qed.
Print Assumptions C126_and_rightly.
(** A client that connects and is never heard of again, and one that posts an item. *)
Lemma list_idle w : m_box w = [] -> ~ exists w', list_step w w'.
Proof. intros H [w' T]. destruct T. discriminate. Qed.
Lemma conn_idle {U} (ev : env U) im sz pg w i : has_ended w i -> ~ exists w', conn_step ev im sz pg i w w'.
Proof.
  intros (s & b & out & e & H) [w' T]. apply conn_advances in T. unfold progress in T at 1. unfold stage_of in T. rewrite H in T. cbn [option_map c_stage] in T.
  unfold progress in T. destruct (stage_of w' i) as [[]|]; lia.
Qed.
Example C126_example : exists r, execution mail_init (mail_step race_env list_image sz1 demo_pages) r /\ fair list_step r /\ fair (conn_step race_env list_image sz1 demo_pages 1) r /\
  length (r_conns (m_world (r 2))) = 2 /\ ~ has_ended (r 2) 1 /\ (forall n, ~ has_ended (r n) 0).
Proof.
  pose (stalled := Conn race_milk None Begun).
  pose (at1 := fun items st box => MWorld (RWorld items [stalled; Conn race_tea None st]) box).
  pose (l := [MWorld (RWorld [] [stalled]) []; at1 [] Begun []; at1 [] (Waiting (AddItem (bs "tea"))) [1]; at1 [bs "tea"] (Got Added) []; at1 [bs "tea"] (race_done (bs "added")) []]).
  exists (rest_at_end mail_init l). split; [|split; [|split; [|split; [|split]]]].
  - apply rest_execution. cbn [path l]. split; [|split; [|split; [|split; [|split; [|exact I]]]]].
    + left. apply (m_accepts [] [] race_milk None []).
    + left. apply (m_accepts [] [stalled] race_tea None []).
    + right. left. exists 1. apply (m_asks race_env list_image sz1 demo_pages 1 [] [stalled] race_tea None (AddItem (bs "tea")) [] []); [reflexivity|]. vm_compute. reflexivity.
    + right. right. apply (m_handles [] [stalled] race_tea None (AddItem (bs "tea")) [bs "tea"] Added [] []). reflexivity.
    + right. left. exists 1. apply (m_answers race_env list_image sz1 demo_pages 1 [bs "tea"] [stalled] race_tea None Added (text_page (bs "text/html") (bs "added")) LDone [] []); [reflexivity|]. vm_compute. reflexivity.
  - apply rest_fair. apply list_idle. reflexivity.
  - apply rest_fair. apply conn_idle. exists race_tea, None, (text_page (bs "text/html") (bs "added")), LDone. reflexivity.
  - reflexivity.
  - intros (s & b & out & e & H). discriminate.
  - intros n (s & b & out & e & H). destruct n as [|[|[|[|[|[|[|n]]]]]]]; try discriminate.
Qed.
