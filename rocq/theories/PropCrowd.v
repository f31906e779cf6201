(** C122: the chat server keeps no more than its users. *)
From Verif Require Import Base HMap Num ComponentModel ChatModel ChatSpec ChatProofs ChatProofs3 PropChat.
From Coq Require Import Lia.

(** ** Specification *)
(** At some time of the history there were (at least) [n] users at once. *)
Definition crowd (h : history) (n : nat) : Prop :=
  exists now later l, h = now ++ later /\ NoDup l /\ length l = n /\ forall i : N, In i l -> exists u p, registered now i u p.

(** ** Proofs *)
Lemma crowd_more h x n : crowd h n -> crowd (h ++ x) n.
Proof. intros (now & later & l & -> & H). exists now, (later ++ x), l. split; [now rewrite app_assoc|exact H]. Qed.
Lemma nodup_front (a b : list N) : NoDup (a ++ b) -> NoDup a.
Proof. induction a as [|x a IH]; intros H; [constructor|]. inversion H as [|? ? H1 H2]; subst. constructor; [intros Hi; apply H1, in_app_iff; now left|now apply IH]. Qed.
Lemma crowd_fewer h n m : m <= n -> crowd h n -> crowd h m.
Proof.
  intros L (now & later & l & -> & N & <- & H). exists now, later, (firstn m l). split; [reflexivity|].
  rewrite <- (firstn_skipn m l) in N. split; [now apply nodup_front in N|]. split; [rewrite firstn_length; lia|].
  intros i Hi. apply H. rewrite <- (firstn_skipn m l). apply in_app_iff. now left.
Qed.
Lemma crowd_now h s : serves h s -> crowd h (length (in_use (id_gen s))).
Proof.
  intros Hs. pose proof (serves_inv _ _ Hs) as ((N1 & _) & N & Hu). exists h, [], (in_use (id_gen s)). split; [now rewrite app_nil_r|]. split; [exact N1|]. split; [reflexivity|].
  intros i Hi. apply Hu in Hi. apply in_map_iff in Hi as ([j [u p]] & <- & Hi). exists u, p. apply (users_registered _ _ Hs). now apply in_nget.
Qed.
Lemma crowd_head h s : serves h s -> crowd h (N.to_nat (head (id_gen s))).
Proof.
  intros Hs. induction Hs as [|h s r s' res msgs Hs IH E].
  - exists [], [], []. repeat split; [constructor|]. intros i [].
  - assert (head (id_gen s') = head (id_gen s) \/ recycle (id_gen s') = []) as [Eh|Er].
    { destruct r as [u p|id u|id t|id]; cbn [handle] in E.
      - unfold get_id in E. destruct (recycle (id_gen s)) as [|i rs] eqn:Er.
        + destruct (N.ltb _ _); [|discriminate]. injection E as <- <- <-. now right.
        + injection E as <- <- <-. now left.
      - injection E as <- <- <-. destruct (nget id (users s)) as [[u0 p]|]; now left.
      - destruct (nget id (users s)) as [[u0 p]|]; [|discriminate]. injection E as <- <- <-. now left.
      - injection E as <- <- <-. left. cbn [id_gen]. unfold release_id. destruct (existsb _ _); reflexivity. }
    + rewrite Eh. now apply crowd_more.
    + pose proof (serves_step _ _ _ _ _ _ Hs E) as Hs'. pose proof (crowd_now _ _ Hs') as C. pose proof (serves_inv _ _ Hs') as ((_ & _ & _ & _ & L) & _). rewrite Er in L. cbn [length] in L.
      replace (N.to_nat (head (id_gen s'))) with (length (in_use (id_gen s'))) by lia. exact C.
Qed.

(** ** C122 *)

(** The ids users get are small: whoever has the id [id], there were at some time more than [id] users at once. *)
Theorem C122_ids_stay_small : forall h s id u p, serves h s -> registered h id u p -> crowd h (S (N.to_nat id)).
Proof.
  intros h s id u p Hs Hr. apply (crowd_fewer h (N.to_nat (head (id_gen s)))); [|now apply crowd_head].
  pose proof (serves_inv _ _ Hs) as ((_ & _ & _ & Hh & _) & _ & Hu). apply (users_registered _ _ Hs) in Hr. apply nget_in in Hr. apply (in_map fst) in Hr. cbn [fst] in Hr. apply Hu in Hr.
  specialize (Hh id (or_introl Hr)). lia.
Qed.
Print Assumptions C122_ids_stay_small.
(** Whatever has gone on, the server remembers no one but the users registered now, and of those who have left only the ids, and
    together no more than there ever were users at once. *)
Theorem C122_memory_is_bounded : forall h s most, serves h s -> (forall n, crowd h n -> n <= most) ->
  (forall i, In i (map fst (users s)) <-> exists u p, registered h i u p) /\ NoDup (map fst (users s)) /\
  (forall i, In i (in_use (id_gen s)) <-> exists u p, registered h i u p) /\ NoDup (in_use (id_gen s)) /\
  length (users s) <= most /\ length (in_use (id_gen s)) + length (recycle (id_gen s)) <= most.
Proof.
  intros h s most Hs Hm. pose proof (serves_inv _ _ Hs) as ((N1 & _ & _ & _ & L) & N & Hu).
  assert (forall i, In i (map fst (users s)) <-> exists u p, registered h i u p) as Hi.
  { intros i. split.
    - intros H. apply in_map_iff in H as ([j [u p]] & <- & H). exists u, p. apply (users_registered _ _ Hs). now apply in_nget.
    - intros (u & p & H). apply (users_registered _ _ Hs) in H. apply nget_in in H. now apply (in_map fst) in H. }
  split; [exact Hi|]. split; [exact N|]. split; [intros i; now rewrite <- Hu|]. split; [exact N1|].
  pose proof (Hm _ (crowd_head _ _ Hs)) as L2. split; [|lia].
  pose proof (Hm _ (crowd_now _ _ Hs)) as L1. transitivity (length (in_use (id_gen s))); [|exact L1]. rewrite <- (map_length fst). apply NoDup_incl_length; [exact N|]. intros i. apply Hu.
Qed.
Print Assumptions C122_memory_is_bounded.
(** And an id is given out again before a new one is made up: the id a new user gets is at most the number of users there were. *)
Theorem C122_new_id : forall h s u p s' id u' msgs most, serves h s -> (forall n, crowd h n -> n <= most) ->
  handle s (RegisterNewUser u p) = Some (s', UserRegistered id u', msgs) -> (id <= N.of_nat most)%N /\
  ((N.of_nat most <= id)%N -> exists l, NoDup l /\ length l = most /\ forall i, In i l -> exists v q, registered h i v q).
Proof.
  intros h s u p s' id u' msgs most Hs Hm E. pose proof (serves_inv _ _ Hs) as ((N1 & N2 & Hd & Hh & L) & N & Hu). pose proof (Hm _ (crowd_head _ _ Hs)) as Lh.
  cbn [handle] in E. unfold get_id in E. destruct (recycle (id_gen s)) as [|i rs] eqn:Er.
  - destruct (N.ltb_spec (head (id_gen s)) u64_max); [|discriminate]. injection E as <- <- <- <-. split; [lia|]. intros Hl. exists (in_use (id_gen s)). split; [exact N1|]. split; [cbn [length] in L; lia|].
    intros i Hi. apply Hu in Hi. apply in_map_iff in Hi as ([j [v q]] & <- & Hi). exists v, q. apply (users_registered _ _ Hs). now apply in_nget.
  - injection E as <- <- <- <-. specialize (Hh i (or_intror (or_introl eq_refl))). split; [lia|]. intros Hl. lia.
Qed.
Print Assumptions C122_new_id.

(** Two join, the first leaves, a third joins: it gets the first one's id, and there never were more than two. *)
Definition crowd_history : history :=
  [(RegisterNewUser (bs "a") 7, UserRegistered 0 (bs "a")); (RegisterNewUser (bs "b") 8, UserRegistered 1 (bs "b"));
   (RemoveUser 0, Closed); (RegisterNewUser (bs "c") 9, UserRegistered 0 (bs "c"))]%N.
Example C122_example : exists s, serves crowd_history s /\ registered crowd_history 1 (bs "b") 8 /\ crowd crowd_history 2 /\
  length (users s) = 2 /\ recycle (id_gen s) = [].
Proof.
  assert (exists s, serves crowd_history s /\ length (users s) = 2 /\ recycle (id_gen s) = [] /\ nget 1 (users s) = Some (bs "b", 8%N)) as (s & Hs & L & R & G).
  { eexists. split.
    - unfold crowd_history. eapply (serves_step [_; _; _]); [eapply (serves_step [_; _]); [eapply (serves_step [_]); [eapply (serves_step []); [constructor|reflexivity]|reflexivity]|reflexivity]|reflexivity].
    - vm_compute. auto. }
  exists s. pose proof (proj1 (users_registered _ _ Hs 1%N (bs "b") 8%N) G) as H. repeat split; auto. exact (C122_ids_stay_small _ _ _ _ _ Hs H).
Qed.

(** ** The whole chat *)
(** The worlds a run of the whole chat has gone through, the last one at the head, with the server's history. *)
Inductive run_of : list world -> history -> Prop :=
| run_init : run_of [world_init] []
| run_more w ws h w' h' : run_of (w :: ws) h -> world_step w (inr (w', h')) -> run_of (w' :: w :: ws) (h ++ h').
Lemma run_reachable ws h : run_of ws h -> forall w rest, ws = w :: rest -> world_reachable h w.
Proof.
  induction 1 as [|w ws h w' h' H IH S]; intros w0 rest E; injection E as <- <-; [constructor|]. eapply wr_step; [|exact S]. eapply IH. reflexivity.
Qed.
Lemma step_short w w' h' : world_step w (inr (w', h')) -> length h' <= 1.
Proof.
  intros H. inversion H as [| ? ? ? ? ? ? ? r E| ? ? ? ? ? ? r A E|]; subst; [cbn; lia| | |].
  - destruct (handle_input _ _ _) as [e|[[[w1 s1] m] hh]] eqn:Eh; [discriminate|]. assert (hh = h') as -> by congruence. clear -Eh. unfold handle_input in Eh.
    destruct (chat_request _ _ _); [destruct (handle _ _) as [[[? ?] ?]|]; [|discriminate]|]; destruct (chat_update _ _ _); try discriminate; injection Eh as <- <- <- <-; cbn; lia.
  - destruct (handle_input _ _ _) as [e|[[[w1 s1] m] hh]] eqn:Eh; [discriminate|]. assert (hh = h') as -> by congruence. clear -Eh. unfold handle_input in Eh.
    destruct (chat_request _ _ _); [destruct (handle _ _) as [[[? ?] ?]|]; [|discriminate]|]; destruct (chat_update _ _ _); try discriminate; injection Eh as <- <- <- <-; cbn; lia.
  - destruct (drop_request _); [destruct (handle _ _) as [[[? ?] ?]|]|]; match goal with E : _ = inr (w', h') |- _ => try discriminate E; injection E as <- <- end; cbn; lia.
Qed.
Lemma run_prefix ws h : run_of ws h -> forall now later, h = now ++ later -> exists w, In w ws /\ world_reachable now w.
Proof.
  induction 1 as [|w ws h w' h' H IH S]; intros now later E.
  - symmetry in E. apply app_eq_nil in E as [-> ->]. exists world_init. split; [now left|constructor].
  - pose proof (step_short _ _ _ S) as L.
    assert (now = h ++ h' \/ exists later', h = now ++ later') as [->|(later' & ->)].
    { clear -E L. destruct h' as [|x [|y h']]; [|  |cbn in L; lia].
      - rewrite app_nil_r in E. right. eauto.
      - destruct later as [|z later] using rev_ind; [rewrite app_nil_r in E; now left|]. rewrite app_assoc in E. apply app_inj_tail in E as [E _]. right. eauto. }
    + exists w'. split; [now left|]. eapply wr_step; [|exact S]. eapply run_reachable; [exact H|reflexivity].
    + destruct (IH now later' eq_refl) as (w0 & Hi & Hw). exists w0. split; [now right|exact Hw].
Qed.
(** In the whole chat: the id a page goes by is smaller than the number of pages that were open at once at some time. *)
Theorem C122_ids_on_pages : forall ws h w rest most, run_of ws h -> ws = w :: rest ->
  (forall w', In w' ws -> length (w_sessions w') <= most) ->
  forall p u id ms comp box, In (Session p (Initialized u id ms comp) box) (w_sessions w) -> (id < N.of_nat most)%N.
Proof.
  intros ws h w rest most R E Hm p u id ms comp box Hi. pose proof (run_reachable _ _ R _ _ E) as Rw.
  pose proof (proj2 (C77_users_are_sessions _ _ Rw id u p) (ex_intro _ ms (ex_intro _ comp (ex_intro _ box Hi)))) as Hr.
  destruct (world_inv _ _ Rw) as [Hs _]. pose proof (C122_ids_stay_small _ _ _ _ _ Hs Hr) as (now & later & l & Eh & N & L & Hl).
  destruct (run_prefix _ _ R _ _ Eh) as (w0 & H0 & R0). specialize (Hm _ H0).
  assert (incl (map Some l) (map (fun s => match s_chat s with Initialized _ i _ _ => Some i | _ => None end) (w_sessions w0))) as I.
  { intros x Hx. apply in_map_iff in Hx as (i & <- & Hx). destruct (Hl i Hx) as (v & q & Hv). apply (C77_users_are_sessions _ _ R0) in Hv as (ms' & c' & b' & Hv). apply in_map_iff. exists (Session q (Initialized v i ms' c') b'). now split. }
  apply NoDup_incl_length in I; [rewrite !map_length in I; lia|]. apply FinFun.Injective_map_NoDup; [|exact N]. intros a b [=]; assumption.
Qed.
Print Assumptions C122_ids_on_pages.
Lemma reachable_run h w : world_reachable h w -> exists rest, run_of (w :: rest) h.
Proof.
  induction 1 as [|h w w' h' R [rest IH] S]; [exists []; constructor|]. exists (w :: rest). now constructor.
Qed.
(** Two pages have joined; the second goes by the id 1, so at some time two pages were open. *)
Example C122_pages_example : exists ws h, run_of (two_sessions [] [] [] [] :: ws) h /\
  In (Session 2 (Initialized [] 1%N [] []) []) (w_sessions (two_sessions [] [] [] [])) /\
  forall most, (forall w', In w' (two_sessions [] [] [] [] :: ws) -> length (w_sessions w') <= most) -> 2 <= most.
Proof.
  destruct two_joined as [h R]. destruct (reachable_run _ _ R) as [ws Hr]. exists ws, h. split; [exact Hr|].
  assert (In (Session 2 (Initialized [] 1%N [] []) []) (w_sessions (two_sessions [] [] [] []))) as Hi by (right; now left).
  split; [exact Hi|]. intros most Hm. pose proof (C122_ids_on_pages _ _ _ _ most Hr eq_refl Hm _ _ _ _ _ _ Hi). lia.
Qed.
