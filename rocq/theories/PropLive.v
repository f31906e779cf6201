(** What eventually happens: C86, C87. *)
From Verif Require Import Base HMap Num DomModel ClientModel ClientSpec ComponentModel ComponentSpec ComponentProofs
  ChatModel ChatSpec ChatProofs ChatProofs2 ChatProofs3 Fair PropComponent PropChat.
From Verif Require WsModel.
From Coq Require Import Lia Permutation.

(* ------------------------------------------------------------------ *)
(** ** C86. The steps of the supervisor: it advances, or takes an input out of its mailbox; of the component: it takes
    the first message out of its mailbox. *)
Definition supervisor_step {I P} (self : P) (s s' : system I P) : Prop :=
  sys_step self s s' /\ (sup s' <> sup s \/ exists i, sup_box s = i :: sup_box s').
Definition component_step {I P} (self : P) (s s' : system I P) : Prop :=
  sys_step self s s' /\ exists m q t, comp_box s = Some (m :: q, t) /\ comp_box s' = Some (q, t ++ [m]).

Section Manage.
Context {I P : Type} (self : P).
Implicit Types s : system I P.

Definition all_mail s : list (mail I P) := match comp_box s with Some (q, t) => t ++ q | None => [] end.
Definition taken s : list (mail I P) := match comp_box s with Some (_, t) => t | None => [] end.
Definition stage s : nat := match sup s with SpawnLoop => 0 | TellIdentity => 1 | SpawnReader => 2 | Forwarding => 3 end.
Definition forwarded s : nat := stage s + length (inputs_of (all_mail s)).

Lemma step_grows s s' : reachable self s -> sys_step self s s' -> (exists d, posted s' = posted s ++ d) /\ (exists d, seen s' = seen s ++ d) /\
  (exists d, all_mail s' = all_mail s ++ d) /\ (exists d, taken s' = taken s ++ d) /\ stage s <= stage s'.
Proof.
  intros R H. pose proof (reachable_inv _ _ R) as V. unfold inv in V. unfold all_mail, taken, stage. inversion H; subst; cbn [sup sup_box comp_box reader posted seen];
    repeat match goal with E : sup _ = _ |- _ => rewrite E in * end;
    try match type of V with comp_box _ = None /\ _ => destruct V as (V & _) end;
    repeat match goal with E : comp_box _ = _ |- _ => rewrite E end;
    (split; [|split; [|split; [|split]]]); try lia;
    try (exists []; symmetry; apply app_nil_r); try (eexists; reflexivity).
  - exists [WhoAmI self]. now rewrite app_assoc.
  - exists [Input i]. now rewrite app_assoc.
  - exists [Ws r]. now rewrite app_assoc.
  - exists []. rewrite app_nil_r, <- app_assoc. reflexivity.
Qed.
Lemma forward_counts s : reachable self s -> 3 <= stage s -> length (inputs_of (all_mail s)) + length (sup_box s) = length (posted s).
Proof.
  intros R. pose proof (reachable_inv _ _ R) as V. unfold inv in V. unfold stage, all_mail. destruct (sup s); try lia. intros _.
  destruct V as (_ & q & t & rest & Hb & Ht & _ & Hi & _). rewrite Hb, Ht. cbn [inputs_of flat_map app]. fold (inputs_of rest). rewrite <- Hi, app_length. lia.
Qed.
Lemma before_forward s : reachable self s -> stage s < 3 -> inputs_of (all_mail s) = [].
Proof.
  intros R. pose proof (reachable_inv _ _ R) as V. unfold inv in V. unfold stage, all_mail. destruct (sup s); try lia; intros _.
  - now destruct V as (-> & _).
  - now destruct V as (-> & _).
  - destruct V as (_ & _ & _ & q & t & -> & ->). reflexivity.
Qed.
Lemma supervisor_enabled s : reachable self s -> forwarded s < 3 + length (posted s) -> exists s', supervisor_step self s s'.
Proof.
  intros R Hf. unfold forwarded in Hf. pose proof (reachable_inv _ _ R) as V. unfold inv in V. destruct (sup s) eqn:E.
  - eexists. split; [now apply spawn_loop|]. left. cbn. congruence.
  - destruct V as (V & _). eexists. split; [eapply tell; [exact E|exact V]|]. left. cbn. congruence.
  - eexists. split; [now apply spawn_reader|]. left. cbn. congruence.
  - assert (stage s = 3) as Es by (unfold stage; now rewrite E). pose proof (forward_counts s R ltac:(lia)) as Hc. destruct V as (_ & q & t & rest & Hb & _).
    destruct (sup_box s) as [|i b] eqn:Eb; [cbn in Hc; lia|]. eexists. split; [eapply forward; eauto|]. right. exists i. exact Eb.
Qed.
Lemma supervisor_progress s s' : reachable self s -> supervisor_step self s s' -> forwarded s < forwarded s'.
Proof.
  intros R [H Hs]. unfold forwarded. pose proof (step_grows s s' R H) as (_ & _ & (d & Hd) & _ & Hst). rewrite Hd, inputs_of_app, app_length.
  assert (stage s <> stage s' \/ inputs_of d <> []) as [Hx|Hx].
  { inversion H; subst; cbn [sup sup_box comp_box] in Hs; unfold stage; cbn [sup];
      try (destruct Hs as [Hs|(i0 & Hs)]; [congruence|exfalso; apply (f_equal (@length I)) in Hs; cbn [length] in Hs; rewrite ?app_length in Hs; cbn [length] in Hs; lia]);
      try match goal with E : sup s = _ |- _ => rewrite E in * end; try (left; congruence).
    right. unfold all_mail in Hd. cbn [comp_box] in Hd. match goal with E : comp_box s = _ |- _ => rewrite E in Hd end. rewrite app_assoc in Hd. apply app_inv_head in Hd. subst d. discriminate. }
  - lia.
  - destruct (inputs_of d); [congruence|cbn [length]; lia].
Qed.
Lemma component_enabled s : reachable self s -> length (taken s) < length (all_mail s) -> exists s', component_step self s s'.
Proof.
  intros R Hl. unfold taken, all_mail in Hl. destruct (comp_box s) as [[[|m q] t]|] eqn:E.
  - rewrite app_nil_r in Hl. lia.
  - eexists. split; [eapply take; exact E|]. exists m, q, t. split; [exact E|reflexivity].
  - cbn in Hl. lia.
Qed.

Section Run.
Variable r : nat -> system I P.
Hypothesis X : execution sys_init (sys_step self) r.
Lemma run_reachable n : reachable self (r n).
Proof. induction n as [|n IH]; [rewrite (proj1 X); constructor|]. destruct (proj2 X n) as [->|H]; [exact IH|econstructor; eauto]. Qed.
Lemma run_grows n m : n <= m -> (exists d, posted (r m) = posted (r n) ++ d) /\ (exists d, seen (r m) = seen (r n) ++ d) /\
  (exists d, all_mail (r m) = all_mail (r n) ++ d) /\ (exists d, taken (r m) = taken (r n) ++ d) /\ stage (r n) <= stage (r m).
Proof.
  induction 1 as [|m Hl ((d1 & H1) & (d2 & H2) & (d3 & H3) & (d4 & H4) & H5)].
  - repeat split; try (exists []; now rewrite app_nil_r). lia.
  - destruct (proj2 X m) as [->|H]; [repeat split; eauto|]. destruct (step_grows _ _ (run_reachable m) H) as ((e1 & G1) & (e2 & G2) & (e3 & G3) & (e4 & G4) & G5).
    rewrite G1, G2, G3, G4, H1, H2, H3, H4, <- !app_assoc. repeat split; eauto. lia.
Qed.
Lemma all_handled : fair (supervisor_step self) r -> fair (component_step self) r -> forall n, exists m q t, n <= m /\ comp_box (r m) = Some (q, t) /\
  exists rest, t = WhoAmI self :: rest /\ (exists later, inputs_of rest = posted (r n) ++ later) /\ (exists later, ws_of rest = seen (r n) ++ later).
Proof.
  intros F1 F2 n.
  destruct (fair_reaches (supervisor_step self) r forwarded (3 + length (posted (r n))) n F1) as (m1 & Hm1 & K1).
  { intros m Hm. unfold forwarded. destruct (run_grows m (S m) ltac:(lia)) as (_ & _ & (d & ->) & _ & H). rewrite inputs_of_app, app_length. lia. }
  { intros m Hm Hf. apply supervisor_enabled; [apply run_reachable|]. destruct (run_grows n m Hm) as ((d & ->) & _). rewrite app_length. lia. }
  { intros m Hm Ha. apply supervisor_progress; [apply run_reachable|exact Ha]. }
  destruct (fair_reaches (component_step self) r (fun s => length (taken s)) (length (all_mail (r m1))) m1 F2) as (m2 & Hm2 & K2).
  { intros m Hm. destruct (run_grows m (S m) ltac:(lia)) as (_ & _ & _ & (d & ->) & _). rewrite app_length. lia. }
  { intros m Hm Hf. apply component_enabled; [apply run_reachable|]. destruct (run_grows m1 m Hm) as (_ & _ & (d & ->) & _). rewrite app_length. lia. }
  { intros m Hm [_ (x & q & t & E1 & E2)]. unfold taken. rewrite E1, E2, app_length. cbn [length]. lia. }
  assert (3 <= stage (r m1)) as Hs1.
  { unfold forwarded in K1. destruct (Nat.le_gt_cases 3 (stage (r m1))); [assumption|]. rewrite (before_forward _ (run_reachable m1)) in K1 by assumption. cbn in K1. lia. }
  pose proof (reachable_inv _ _ (run_reachable m1)) as V1. unfold inv in V1. unfold stage in Hs1. destruct (sup (r m1)) eqn:Esup; try lia.
  destruct V1 as (_ & q1 & t1 & rest1 & Hb1 & Ht1 & _ & Hi1 & Hw1).
  destruct (run_grows n m1 Hm1) as ((d1 & Hp) & (d2 & Hsn) & _ & _ & _).
  destruct (run_grows m1 m2 Hm2) as (_ & _ & (d3 & Hall) & _ & _).
  assert (all_mail (r m1) = WhoAmI self :: rest1) as Ha1 by (unfold all_mail; now rewrite Hb1).
  destruct (comp_box (r m2)) as [[q2 t2]|] eqn:Hb2; [|unfold taken in K2; rewrite Hb2, Ha1 in K2; cbn in K2; lia].
  exists m2, q2, t2. split; [lia|]. split; [exact Hb2|].
  assert (taken (r m2) = t2 /\ all_mail (r m2) = t2 ++ q2) as [E2 E3] by (unfold taken, all_mail; now rewrite Hb2). rewrite E2 in K2. rewrite E3, Ha1 in Hall.
  rewrite Ha1 in K2.
  assert (exists e, t2 = WhoAmI self :: rest1 ++ e) as (e & ->).
  { exists (skipn (length (WhoAmI self :: rest1)) t2). change (WhoAmI self :: rest1 ++ ?x) with ((WhoAmI self :: rest1) ++ x).
    rewrite <- (firstn_skipn (length (WhoAmI self :: rest1)) t2) at 1. f_equal. transitivity (firstn (length (WhoAmI self :: rest1)) (t2 ++ q2)).
    - rewrite firstn_app. replace (length (WhoAmI self :: rest1) - length t2) with 0 by lia. cbn [firstn]. now rewrite app_nil_r.
    - rewrite Hall. rewrite firstn_app, firstn_all, Nat.sub_diag. cbn [firstn]. apply app_nil_r. }
  exists (rest1 ++ e). split; [reflexivity|]. rewrite inputs_of_app, ws_of_app, Hw1, Hsn. split.
  - assert (length (inputs_of rest1) >= length (posted (r n))) as Hlen.
    { unfold forwarded, stage in K1. rewrite Esup, Ha1 in K1. cbn [inputs_of flat_map app] in K1. fold (inputs_of rest1) in K1. lia. }
    exists (skipn (length (posted (r n))) (inputs_of rest1) ++ inputs_of e). rewrite app_assoc. f_equal.
    rewrite <- (firstn_skipn (length (posted (r n))) (inputs_of rest1)) at 1. f_equal.
    transitivity (firstn (length (posted (r n))) (inputs_of rest1 ++ sup_box (r m1))).
    + rewrite firstn_app. replace (length (posted (r n)) - length (inputs_of rest1)) with 0 by lia. cbn [firstn]. now rewrite app_nil_r.
    + rewrite Hi1, Hp. rewrite firstn_app, firstn_all, Nat.sub_diag. cbn [firstn]. apply app_nil_r.
  - exists (d2 ++ ws_of e). now rewrite <- app_assoc.
Qed.
End Run.
End Manage.

(** In every execution in which the supervisor and the component process are scheduled fairly (and whatever the reader,
    the peer and the senders of inputs do), everything that has been sent to the process [manage] returns, and
    everything read from the WebSocket, is eventually taken by the component, inputs in the order they were sent. *)
Theorem C86_everything_is_taken : forall I P (self : P) (r : nat -> system I P),
  execution sys_init (sys_step self) r -> fair (supervisor_step self) r -> fair (component_step self) r ->
  forall n, exists m q t, n <= m /\ comp_box (r m) = Some (q, t) /\
    exists rest, t = WhoAmI self :: rest /\ (exists later, inputs_of rest = posted (r n) ++ later) /\ (exists later, ws_of rest = seen (r n) ++ later).
Proof. intros I P self r. exact (all_handled self r). Qed.
Print Assumptions C86_everything_is_taken.
(** An execution in which two inputs arrive while the component is being set up. *)
Example C86_example : exists r : nat -> system todo_input nat, execution sys_init (sys_step 7) r /\ fair (supervisor_step 7) r /\ fair (component_step 7) r /\
  posted (r 2) = [Add (bs "a"); Clear] /\ comp_box (r 10) = Some ([], [WhoAmI 7; Input (Add (bs "a")); Input Clear]).
Proof.
  pose (i1 := Add (bs "a")). pose (b := [i1; Clear]). pose (w := @WhoAmI todo_input nat 7).
  exists (rest_at_end sys_init [
    System SpawnLoop [i1] None false [i1] []; System SpawnLoop b None false b []; System TellIdentity b (Some ([], [])) false b [];
    System SpawnReader b (Some ([w], [])) false b []; System Forwarding b (Some ([w], [])) true b [];
    System Forwarding [Clear] (Some ([w; Input i1], [])) true b []; System Forwarding [Clear] (Some ([Input i1], [w])) true b [];
    System Forwarding [] (Some ([Input i1; Input Clear], [w])) true b []; System Forwarding [] (Some ([Input Clear], [w; Input i1])) true b [];
    System Forwarding [] (Some ([], [w; Input i1; Input Clear])) true b []]).
  split; [|split; [|split; [|split; reflexivity]]].
  - apply rest_execution. cbn [path]. split; [exact (post 7 _ i1)|]. split; [exact (post 7 _ Clear)|]. split; [match goal with |- sys_step _ ?s _ => exact (spawn_loop 7 s eq_refl) end|]. split; [match goal with |- sys_step _ ?s _ => exact (tell 7 s [] [] eq_refl eq_refl) end|]. split; [match goal with |- sys_step _ ?s _ => exact (spawn_reader 7 s eq_refl) end|].
    split; [match goal with |- sys_step _ ?s _ => exact (forward 7 s i1 [Clear] [w] [] eq_refl eq_refl eq_refl) end|]. split; [match goal with |- sys_step _ ?s _ => exact (take 7 s w [Input i1] [] eq_refl) end|]. split; [match goal with |- sys_step _ ?s _ => exact (forward 7 s Clear [] [Input i1] [w] eq_refl eq_refl eq_refl) end|].
    split; [match goal with |- sys_step _ ?s _ => exact (take 7 s (Input i1) [Input Clear] [w] eq_refl) end|]. split; [match goal with |- sys_step _ ?s _ => exact (take 7 s (Input Clear) [] [w; Input i1] eq_refl) end|]. exact Logic.I.
  - apply rest_fair. cbn [last]. intros (s & H & Hs). inversion H; subst; cbn in *; try congruence; destruct Hs as [Hs|(j & Hs)]; congruence.
  - apply rest_fair. cbn [last]. intros (s & _ & m & q & t & E & _). discriminate.
Qed.

(* ------------------------------------------------------------------ *)
(** ** C87. The chat with its history as a transition system; the step of a session: its component takes the first
    input out of its inbox and handles it. *)
Definition chat_step (x y : history * world) : Prop := exists hh, world_step (snd x) (inr (snd y, hh)) /\ fst y = fst x ++ hh.
Definition session_step (p : N) (x y : history * world) : Prop :=
  exists w l1 c i box l2 w' s' msgs hh, snd x = World w (l1 ++ Session p c (i :: box) :: l2) /\
    handle_input w (Session p c box) i = inr (w', s', msgs, hh) /\ y = (fst x ++ hh, World w' (deliver_all msgs (l1 ++ s' :: l2))).
Definition open_in (p : N) (w : world) : Prop := In p (map s_self (w_sessions w)).

(** How a joined session develops: of what was in the inbox, a first part has been shown, with perhaps other messages;
    the rest is still in front of what has come since. *)
Definition develops (p id : N) (u : str) (ms : list chat_message) (box : list linput) (w : world) : Prop :=
  exists ms' comp' gone left new more, In (Session p (Initialized u id ms' comp') (left ++ new)) (w_sessions w) /\
    box = gone ++ left /\ Permutation ms' (ms ++ pending gone ++ more).
Lemma develops_stay p id u ms comp box new w : In (Session p (Initialized u id ms comp) (box ++ new)) (w_sessions w) -> develops p id u ms box w.
Proof. intros H. exists ms, comp, [], box, new, []. split; [exact H|]. split; [reflexivity|]. cbn. now rewrite app_nil_r. Qed.
Lemma develops_more p id u ms ms' comp' box w new own : In (Session p (Initialized u id ms' comp') (box ++ new)) (w_sessions w) -> ms' = ms ++ own -> develops p id u ms box w.
Proof. intros H ->. exists (ms ++ own), comp', [], box, new, own. split; [exact H|]. split; reflexivity. Qed.

Lemma session_unique h w p c box c' box' : winv h w -> In (Session p c box) (w_sessions w) -> In (Session p c' box') (w_sessions w) -> Session p c box = Session p c' box'.
Proof.
  intros (_ & N & _) H1 H2. destruct (in_split _ _ H2) as (a & b & E). rewrite E in N, H1. eapply in_split_self; eauto.
Qed.
Lemma in_delivered msgs l s : In s l -> In (receive_all msgs s) (deliver_all msgs l).
Proof. intros H. rewrite deliver_all_map. now apply in_map. Qed.
Lemma other_delivered p c box msgs l1 s s' l2 : In (Session p c box) (l1 ++ s :: l2) -> s_self s <> p ->
  In (Session p c (box ++ mine p msgs)) (deliver_all msgs (l1 ++ s' :: l2)).
Proof.
  intros H Hn. change (Session p c (box ++ mine p msgs)) with (receive_all msgs (Session p c box)). apply in_delivered.
  apply in_app_iff in H as [H|[->|H]]; [apply in_app_iff; now left|cbn in Hn; congruence|apply in_app_iff; right; now right].
Qed.
Lemma self_of l1 l2 s msgs q : In q (map s_self (deliver_all msgs (l1 ++ s :: l2))) <-> In q (map s_self (l1 ++ s :: l2)).
Proof. rewrite deliver_all_map, map_map. cbn. reflexivity. Qed.

Lemma step_develops h w w' hh p u id ms comp box : winv h w -> world_step w (inr (w', hh)) ->
  In (Session p (Initialized u id ms comp) box) (w_sessions w) -> open_in p w' -> develops p id u ms box w'.
Proof.
  intros W H Hi Ho. remember (inr (w', hh)) as r eqn:Er. destruct H as [sv l q Hq|sv l1 q c i b l2 r E|sv l1 s l2 text i r Ha E|sv l1 s l2]; cbn [w_sessions] in Hi.
  - injection Er as <- <-. apply develops_stay with (comp := comp) (new := []). rewrite app_nil_r. cbn. apply in_app_iff. now left.
  - destruct r as [e|[[[sv' s'] msgs] hh']]; [discriminate|]. injection Er as <- <-. destruct (N.eq_dec q p) as [->|Hn].
    + assert (Session p (Initialized u id ms comp) box = Session p c (i :: b)) as [= <- ->] by (eapply session_unique; [exact W|exact Hi|cbn; apply in_app_iff; right; now left]).
      assert (exists m, i = ReceiveMessage m) as (m & ->).
      { destruct W as (_ & _ & F & _). rewrite Forall_forall in F. apply F in Hi as (B & _). inversion B; subst. assumption. }
      cbn in E. injection E as <- <- <- <-. rewrite deliver_nothing. exists (ms ++ [m]), comp, [ReceiveMessage m], b, [], []. rewrite !app_nil_r. split; [cbn; apply in_app_iff; right; now left|].
      split; reflexivity.
    + apply develops_stay with (comp := comp) (new := mine p msgs). cbn [w_sessions]. eapply other_delivered; [exact Hi|exact Hn].
  - destruct r as [e|[[[sv' s'] msgs] hh']]; [discriminate|]. injection Er as <- <-. destruct (N.eq_dec (s_self s) p) as [<-|Hn].
    + destruct s as [q c b]. cbn [s_self s_chat] in *.
      assert (Session q (Initialized u id ms comp) box = Session q c b) as [= <- <-] by (eapply session_unique; [exact W|exact Hi|cbn; apply in_app_iff; right; now left]).
      apply chat_asks in Ha as [[=]|(text' & name & payload & _ & _ & Ha)]. destruct Ha as [(_ & v & _ & ->)|(_ & ->)].
      * cbn in E. injection E as <- <- <- <-. rewrite deliver_nothing. apply develops_stay with (comp := v) (new := []). rewrite app_nil_r. cbn. apply in_app_iff. right. now left.
      * unfold handle_input in E. cbn [chat_request s_chat s_self] in E. destruct (winv_send _ _ _ _ _ _ _ _ _ _ W) as (E1 & E2 & _). rewrite E1 in E. cbn [chat_update chat_update1 s_box] in E.
        injection E as <- <- <- <-. cbn [w_sessions]. rewrite E2. eapply develops_more with (new := []) (own := [_]); [|reflexivity]. rewrite app_nil_r. cbn [w_sessions]. apply in_app_iff. right. now left.
    + apply develops_stay with (comp := comp) (new := mine p msgs). cbn [w_sessions]. eapply other_delivered; [exact Hi|exact Hn].
  - assert (s_self s <> p -> In (Session p (Initialized u id ms comp) box) (l1 ++ l2)) as Hstay.
    { intros Hn. apply in_app_iff in Hi as [Hi|[->|Hi]]; [apply in_app_iff; now left|cbn in Hn; congruence|apply in_app_iff; now right]. }
    assert (~ (s_self s = p /\ In p (map s_self (l1 ++ l2)))) as Hgone.
    { intros [<- Hx]. destruct W as (_ & N & _). cbn in N. rewrite map_app in *. cbn [map] in N. now apply NoDup_remove_2 in N. }
    destruct s as [q [v|v i ms0 comp0] b]; cbn [drop_request s_chat s_self] in *.
    + injection Er as <- <-. apply develops_stay with (comp := comp) (new := []). rewrite app_nil_r. apply Hstay. intros ->. apply Hgone. now split.
    + destruct (winv_close _ _ _ _ _ _ _ _ _ _ W) as (sv' & E & _). rewrite E, deliver_nothing in Er. injection Er as <- <-.
      apply develops_stay with (comp := comp) (new := []). rewrite app_nil_r. apply Hstay. intros ->. apply Hgone. now split.
Qed.
Lemma develops_trans p id u ms box w w' : develops p id u ms box w ->
  (forall ms' comp' box', In (Session p (Initialized u id ms' comp') box') (w_sessions w) -> develops p id u ms' box' w') -> develops p id u ms box w'.
Proof.
  intros (ms1 & comp1 & gone & left & new & more & Hi & -> & P1) H. destruct (H _ _ _ Hi) as (ms2 & comp2 & gone2 & left2 & new2 & more2 & Hi2 & Eb & P2).
  apply app_eq_app in Eb as (l & [(-> & ->)|(-> & ->)]).
  - exists ms2, comp2, (gone ++ gone2), l, (new ++ new2), (more ++ more2). split; [now rewrite app_assoc|]. split; [apply app_assoc|].
    rewrite P2, P1, !pending_app, <- !app_assoc. apply Permutation_app_head. apply Permutation_app_head. rewrite !app_assoc. apply Permutation_app_tail. apply Permutation_app_comm.
  - exists ms2, comp2, (gone ++ left), [], (left2 ++ new2), (more ++ pending l ++ more2). split; [exact Hi2|]. split; [now rewrite app_nil_r|].
    rewrite P2, P1, !pending_app, <- !app_assoc. apply Permutation_app_head. apply Permutation_app_head. rewrite !app_assoc. do 2 apply Permutation_app_tail. apply Permutation_app_comm.
Qed.

Section ChatRun.
Variable r : nat -> history * world.
Hypothesis X : execution ([], world_init) chat_step r.
Lemma chat_reachable n : world_reachable (fst (r n)) (snd (r n)).
Proof.
  induction n as [|n IH]; [rewrite (proj1 X); constructor|]. destruct (proj2 X n) as [->|(hh & H & ->)]; [exact IH|]. econstructor; eauto.
Qed.
Lemma chat_develops p u id : forall n m, n <= m -> (forall k, n <= k -> open_in p (snd (r k))) ->
  forall ms comp box, In (Session p (Initialized u id ms comp) box) (w_sessions (snd (r n))) -> develops p id u ms box (snd (r m)).
Proof.
  intros n m Hl Ho. induction Hl as [|m Hl IH]; intros ms comp box Hi.
  - eapply develops_stay with (new := []). rewrite app_nil_r. exact Hi.
  - eapply develops_trans; [exact (IH _ _ _ Hi)|]. intros ms' comp' box' Hi'. destruct (proj2 X m) as [->|(hh & H & _)].
    + eapply develops_stay with (new := []). rewrite app_nil_r. exact Hi'.
    + eapply step_develops; [exact (world_inv _ _ (chat_reachable m))|exact H|exact Hi'|]. apply Ho. lia.
Qed.
Lemma session_enabled n p u id ms comp i box : In (Session p (Initialized u id ms comp) (i :: box)) (w_sessions (snd (r n))) -> exists y, session_step p (r n) y.
Proof.
  intros Hi. pose proof (world_inv _ _ (chat_reachable n)) as W. destruct (r n) as [h [w l]]. cbn [fst snd w_sessions] in *.
  assert (exists m, i = ReceiveMessage m) as (m & ->).
  { destruct W as (_ & _ & F & _). rewrite Forall_forall in F. apply F in Hi as (B & _). inversion B; subst. assumption. }
  destruct (in_split _ _ Hi) as (l1 & l2 & ->). eexists. unfold session_step. do 10 eexists. split; [reflexivity|]. split; reflexivity.
Qed.
Lemma session_takes n p u id ms comp m box : In (Session p (Initialized u id ms comp) (ReceiveMessage m :: box)) (w_sessions (snd (r n))) -> session_step p (r n) (r (S n)) ->
  In (Session p (Initialized u id (ms ++ [m]) comp) box) (w_sessions (snd (r (S n)))).
Proof.
  intros Hi (w & l1 & c & i & b & l2 & w' & s' & msgs & hh & E1 & E2 & E3). pose proof (world_inv _ _ (chat_reachable n)) as W.
  assert (Session p (Initialized u id ms comp) (ReceiveMessage m :: box) = Session p c (i :: b)) as [= <- <- <-].
  { eapply session_unique; [exact W|exact Hi|]. rewrite E1. cbn. apply in_app_iff. right. now left. }
  cbn in E2. injection E2 as <- <- <- <-. rewrite E3. cbn. apply in_app_iff. right. now left.
Qed.
Lemma inbox_shown p u id : fair (session_step p) r -> forall len n, (forall k, n <= k -> open_in p (snd (r k))) ->
  forall ms comp front back, length front <= len -> In (Session p (Initialized u id ms comp) (front ++ back)) (w_sessions (snd (r n))) ->
  exists m ms' comp' box' more, n <= m /\ In (Session p (Initialized u id ms' comp') box') (w_sessions (snd (r m))) /\ Permutation ms' (ms ++ pending front ++ more).
Proof.
  intros F. induction len as [|len IH]; intros n Ho ms comp front back Hlen Hi.
  - destruct front; [|cbn in Hlen; lia]. exists n, ms, comp, ([] ++ back), []. split; [lia|]. split; [exact Hi|]. cbn. now rewrite app_nil_r.
  - destruct (F n) as (m & Hm & Ha). destruct (chat_develops p u id n m Hm Ho _ _ _ Hi) as (ms1 & comp1 & gone & left & new & more & Hi1 & Eb & P1).
    assert (forall k, m <= k -> open_in p (snd (r k))) as Ho1 by (intros; apply Ho; lia).
    apply app_eq_app in Eb as (x & [(-> & ->)|(-> & ->)]).
    + (* only part of the front has been taken *)
      destruct gone as [|g gone].
      * cbn [app] in *. destruct x as [|i x].
        { exists m, ms1, comp1, (back ++ new), more. cbn [app] in *. auto. }
        rewrite <- app_assoc in Hi1. change ((i :: x) ++ back ++ new) with (i :: (x ++ back ++ new)) in Hi1.
        destruct Ha as [Ha|Ha]; [|exfalso; apply Ha; eapply session_enabled; exact Hi1].
        assert (exists mm, i = ReceiveMessage mm) as (mm & ->).
        { pose proof (world_inv _ _ (chat_reachable m)) as (_ & _ & FF & _). rewrite Forall_forall in FF. apply FF in Hi1 as (B & _). inversion B; subst. assumption. }
        pose proof (session_takes _ _ _ _ _ _ _ _ Hi1 Ha) as Hi2.
        destruct (IH (S m) (fun k Hk => Ho k ltac:(lia)) _ _ x (back ++ new) ltac:(cbn in Hlen; lia) Hi2) as (m' & ms' & comp' & box' & more' & Hm' & Hi' & P').
        exists m', ms', comp', box', (more ++ more'). split; [lia|]. split; [exact Hi'|]. rewrite P', P1. cbn [pending flat_map app]. fold (pending x). rewrite <- !app_assoc.
        apply Permutation_app_head. cbn [app]. etransitivity; [symmetry; apply Permutation_middle|]. apply perm_skip.
        rewrite !app_assoc. apply Permutation_app_tail. apply Permutation_app_comm.
      * cbn [app length] in Hlen. rewrite app_length in Hlen. rewrite <- app_assoc in Hi1.
        destruct (IH m Ho1 _ _ x (back ++ new) ltac:(lia) Hi1) as (m' & ms' & comp' & box' & more' & Hm' & Hi' & P').
        exists m', ms', comp', box', (more ++ more'). split; [lia|]. split; [exact Hi'|]. rewrite P', P1, pending_app, <- !app_assoc. do 2 apply Permutation_app_head.
        rewrite !app_assoc. apply Permutation_app_tail. apply Permutation_app_comm.
    + exists m, ms1, comp1, (left ++ new), (pending x ++ more). split; [lia|]. split; [exact Hi1|]. rewrite P1, pending_app, <- !app_assoc. reflexivity.
Qed.
End ChatRun.

Lemma since_unique h p id u h2 h2' : since_joining h p id u h2 -> since_joining h p id u h2' -> h2 = h2'.
Proof.
  intros (a & -> & F) (b & E & F'). apply app_eq_app in E as (x & [(-> & E)|(-> & E)]).
  - destruct x as [|y x]; [cbn [app] in E; congruence|]. exfalso. cbn [app] in E. injection E as <- ->. rewrite Forall_forall in F'. 
    destruct (F' (RegisterNewUser u p, UserRegistered id u)) as [_ H]; [apply in_app_iff; right; now left|]. now apply (H u).
  - destruct x as [|y x]; [cbn [app] in E; congruence|]. exfalso. cbn [app] in E. injection E as <- ->. rewrite Forall_forall in F.
    destruct (F (RegisterNewUser u p, UserRegistered id u)) as [_ H]; [apply in_app_iff; right; now left|]. now apply (H u).
Qed.

(** In every execution of the chat that schedules the component of [p] fairly, whatever the other users, the browsers and
    the other components do: a joined session that stays open comes to show every message said since it joined, each as
    often as it was said. *)
Theorem C87_messages_are_shown : forall (r : nat -> history * world) p u id, execution ([], world_init) chat_step r -> fair (session_step p) r ->
  forall n ms comp box, In (Session p (Initialized u id ms comp) box) (w_sessions (snd (r n))) -> (forall m, n <= m -> open_in p (snd (r m))) ->
  forall h2, since_joining (fst (r n)) p id u h2 ->
  exists m ms' comp' box' more, n <= m /\ In (Session p (Initialized u id ms' comp') box') (w_sessions (snd (r m))) /\ Permutation ms' (said h2 ++ more).
Proof.
  intros r p u id X F n ms comp box Hi Ho h2 J. destruct (C79_same_messages_partial _ _ (chat_reachable r X n) _ _ _ _ _ _ Hi) as (_ & h2' & J' & P).
  pose proof (since_unique _ _ _ _ _ _ J J') as <-. destruct (inbox_shown r X p u id F (length box) n Ho ms comp box []) as (m & ms' & comp' & box' & more & Hm & Hi' & P').
  - lia.
  - now rewrite app_nil_r.
  - exists m, ms', comp', box', more. split; [exact Hm|]. split; [exact Hi'|]. rewrite P', app_assoc. now apply Permutation_app_tail.
Qed.
Print Assumptions C87_messages_are_shown.
Lemma reach_path h w : world_reachable h w -> exists l, path chat_step ([], world_init) l /\ last l ([], world_init) = (h, w).
Proof.
  induction 1 as [|h w w' h' R (l & H1 & H2) S]; [now exists []|]. exists (l ++ [(h ++ h', w')]). split; [|now rewrite last_last].
  apply path_snoc; [exact H1|]. rewrite H2. exists h'. split; [exact S|reflexivity].
Qed.
(** Ann and Bob have joined, Bob has written and Ann is about to see it. *)
Example C87_example : exists r n ms comp box h2, execution ([], world_init) chat_step r /\ fair (session_step 1) r /\
  In (Session 1 (Initialized [] 0 ms comp) box) (w_sessions (snd (r n))) /\ box <> [] /\ (forall m, n <= m -> open_in 1 (snd (r m))) /\
  since_joining (fst (r n)) 1 0 [] h2 /\ said h2 <> [].
Proof.
  destruct two_joined as [h R]. unfold two_sessions in R.
  eapply (wr_browser _ _ [_] _ []) in R; [|apply (clicks (bs "submit_message")); vm_compute; reflexivity|vm_compute; reflexivity].
  cbv [deliver_all deliver fold_left map app s_self s_chat s_box fst snd N.eqb Pos.eqb] in R.
  match type of R with world_reachable ?h0 ?w0 => set (h1 := h0) in R; set (w1 := w0) in R end.
  assert (exists w2, chat_step (h1, w1) (h1, w2) /\ w_sessions w2 = [Session 1 (Initialized [] 0 [ChatMessage 1 [] []] []) []; Session 2 (Initialized [] 1 [ChatMessage 1 [] []] []) []]) as (w2 & St & E2).
  { eexists. split; [exists []; split; [|cbn; now rewrite app_nil_r]; exact (w_input _ [] 1%N _ _ [] [_] _ eq_refl)|reflexivity]. }
  destruct (C79_same_messages_partial _ _ R 1%N [] 0%N [] [] [ReceiveMessage (ChatMessage 1 [] [])] (or_introl eq_refl)) as (_ & h2 & J & P).
  destruct (reach_path _ _ R) as (l & Hp & Hl). set (r := rest_at_end (([], world_init) : history * world) (l ++ [(h1, w2)])).
  assert (r (length l) = (h1, w1)) as Er by (unfold r; rewrite rest_before; exact Hl). exists r, (length l), [], [], [ReceiveMessage (ChatMessage 1 [] [])], h2.
  rewrite Er. cbn [fst snd]. split; [apply rest_execution, path_snoc; [exact Hp|]; replace (last l _) with (h1, w1); exact St|]. split.
  { apply rest_fair. rewrite last_last. intros (y & w & l1 & c & i & box & l2 & w' & s' & msgs & hh & E & _). cbn [snd] in E. rewrite E in E2. cbn [w_sessions] in E2.
    destruct l1 as [|s1 [|s3 [|s4 l1]]]; discriminate E2. }
  split; [now left|]. split; [discriminate|]. split; [|split; [exact J|]].
  - intros m Hm. destruct (Nat.eq_dec m (length l)) as [->|Hn]; [rewrite Er; now left|]. unfold r. rewrite rest_after by lia. unfold open_in. cbn [snd]. rewrite E2. now left.
  - intros E. rewrite E in P. apply Permutation_sym, Permutation_nil in P. discriminate.
Qed.
