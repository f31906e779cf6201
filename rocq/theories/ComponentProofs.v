(** Proofs about component processes. *)
From Verif Require InnerHtml.
From Verif Require Import Base HMap Num Utf8 Json DomModel DomSpec DomProofs DomProofs2 DomProofs3 DomProofs4 HtmlModel
  ClientModel ClientSpec ClientProofs ClientProofs2 ComponentModel JsonSpec JsonProofs ComponentSpec.
From Verif Require WsModel.
From Coq Require Import Lia.

Section Comp.
Context {D I S E P : Type} (C : component D I S E P).
Notation process := (process I S P).
Notation mail := (mail I P).

Lemma asks_fun (ls : hmap (handler I)) (m : mail) i j : asks ls m i -> asks ls m j -> i = j.
Proof. intros H1 H2. inversion H1; subst; inversion H2; subst; unsay; congruence. Qed.

Lemma iteration_asks e (m : mail) ctx c dom ls i : asks ls m i -> iteration C e m ctx c dom ls = update_and_diff C e ctx c dom i.
Proof. intros H. inversion H as [|? ? ? ? H1 H2|? ? ? ? H1 H2|? ? ? ? H1 H2]; subst; unsay; cbn [iteration]; [reflexivity|now rewrite H1, H2..]. Qed.
Lemma iteration_idle e (m : mail) ctx c dom ls : (forall i, ~ asks ls m i) -> ~ closing m -> ~ identity m ->
  iteration C e m ctx c dom ls = (Looping ctx c dom ls, []).
Proof.
  intros H1 H2 H3. destruct m as [[[| |text|]|[|]]|i|p]; cbn [iteration]; try reflexivity.
  - destruct (client_message text) as [[name payload]|] eqn:E1; [|reflexivity]. destruct (get name ls) as [[call|call|call]|] eqn:E2; [| | |reflexivity].
    + exfalso. apply (H1 call). eapply asks_click; [apply says_iff; eauto|eauto].
    + exfalso. apply (H1 call). eapply asks_submit; [apply says_iff; eauto|eauto].
    + destruct payload as [v|]; [|reflexivity]. exfalso. apply (H1 (call v)). eapply asks_input; [apply says_iff; eauto|eauto].
  - exfalso. now apply H2.
  - exfalso. apply (H1 i). constructor.
  - exfalso. apply H3. now exists p.
Qed.
Lemma classify (ls : hmap (handler I)) (m : mail) : (exists i, asks ls m i) \/ ((forall i, ~ asks ls m i) /\ (closing m \/ identity m \/ (~ closing m /\ ~ identity m))).
Proof.
  assert ((exists i, asks ls m i) \/ (forall i, ~ asks ls m i)) as [H|H].
  { destruct m as [[[| |text|]|[|]]|i|p]; try (right; intros i H; inversion H; fail).
    - destruct (client_message text) as [[name payload]|] eqn:E1; [|right; intros i H; inversion H; unsay; congruence].
      destruct (get name ls) as [[call|call|call]|] eqn:E2; [| | |right; intros i H; inversion H; unsay; congruence].
      + left. exists call. eapply asks_click; [apply says_iff; eauto|eauto].
      + left. exists call. eapply asks_submit; [apply says_iff; eauto|eauto].
      + destruct payload as [v|]; [|right; intros i H; inversion H; unsay; congruence]. left. exists (call v). eapply asks_input; [apply says_iff; eauto|eauto].
    - left. exists i. constructor. }
  - now left.
  - right. split; [exact H|]. destruct m as [[m|[|]]|i|p].
    + right. right. split; [discriminate|intros (p & Hp); discriminate].
    + right. right. split; [discriminate|intros (p & Hp); discriminate].
    + left. reflexivity.
    + right. right. split; [discriminate|intros (p & Hp); discriminate].
    + right. left. now exists p.
Qed.

Lemma run_app data sent ms1 ms2 p : run C data sent (ms1 ++ ms2) p =
  let '(p1, o1) := run C data sent ms1 p in let '(p2, o2) := run C data sent ms2 p1 in (p2, o1 ++ o2).
Proof.
  revert p. induction ms1 as [|em ms1 IH]; intros p; cbn [app run].
  - now destruct (run C data sent ms2 p).
  - destruct (receive C data sent em p) as [p1 o1]. rewrite IH. destruct (run C data sent ms1 p1) as [p2 o2].
    destruct (run C data sent ms2 p2) as [p3 o3]. now rewrite app_assoc.
Qed.
Lemma run_returned data sent ms c : run C data sent ms (Returned c) = (Returned c, []).
Proof. induction ms as [|[e m] ms IH]; cbn [run receive]; [reflexivity|]. now rewrite IH. Qed.
Lemma run_panicked data sent ms : run C data sent ms Panicked = (Panicked, []).
Proof. induction ms as [|[e m] ms IH]; cbn [run receive]; [reflexivity|]. now rewrite IH. Qed.

(** The loop keeps exactly what a life without snapshots has. *)
Lemma loop_lives data sent ms : forall ctx c dom ls ctx' c' dom' ls' out, c_render C c = Some (dom, ls) ->
  run C data sent ms (Looping ctx c dom ls) = (Looping ctx' c' dom' ls', out) ->
  ctx' = ctx /\ c_render C c' = Some (dom', ls') /\
  exists cs doms, lives C ctx c ms cs c' /\ Forall2 (fun x d => exists l, c_render C x = Some (d, l)) cs doms /\ updates dom doms out.
Proof.
  induction ms as [|[e m] ms IH]; intros ctx c dom ls ctx' c' dom' ls' out Hr H.
  - cbn [run] in H. injection H as <- <- <- <- <-. split; [reflexivity|]. split; [exact Hr|]. exists [], []. repeat constructor.
  - cbn [run receive fst snd] in H. destruct (classify ls m) as [[i Hi]|[Hn [Hc|[Hw|[Hc Hw]]]]].
    + rewrite (iteration_asks _ _ _ _ _ _ _ Hi) in H. unfold update_and_diff in H.
      destruct (c_update C e c i ctx) as [c1|] eqn:Eu; [|rewrite run_panicked in H; discriminate].
      unfold perform_diff in H. destruct (c_render C c1) as [[d1 l1]|] eqn:Er; [|rewrite run_panicked in H; discriminate].
      destruct (diff dom (Some d1)) as [os|] eqn:Ed; [|rewrite run_panicked in H; discriminate].
      destruct (run C data sent ms (Looping ctx c1 d1 l1)) as [p2 o2] eqn:E2. injection H as -> <-.
      destruct (IH _ _ _ _ _ _ _ _ _ Er E2) as (-> & R & cs & doms & L & F & U). split; [reflexivity|]. split; [exact R|].
      exists (c1 :: cs), (d1 :: doms). split; [eapply lives_update; eauto|]. split; [constructor; eauto|]. cbn [app]. now constructor.
    + rewrite Hc in H. cbn [iteration] in H. rewrite run_returned in H. discriminate.
    + destruct Hw as (p & ->). cbn [iteration] in H. rewrite run_panicked in H. discriminate.
    + rewrite (iteration_idle _ _ _ _ _ _ Hn Hc Hw) in H. destruct (run C data sent ms (Looping ctx c dom ls)) as [p2 o2] eqn:E2.
      cbn [app] in H. injection H as -> <-. destruct (IH _ _ _ _ _ _ _ _ _ Hr E2) as (-> & R & cs & doms & L & F & U).
      split; [reflexivity|]. split; [exact R|]. exists cs, doms. split; [eapply lives_idle; eauto|]. auto.
Qed.
Lemma lives_loop data sent ctx c ms cs c' : lives C ctx c ms cs c' -> forall dom ls doms out, c_render C c = Some (dom, ls) ->
  Forall2 (fun x d => exists l, c_render C x = Some (d, l)) cs doms -> updates dom doms out ->
  exists dom' ls', c_render C c' = Some (dom', ls') /\ run C data sent ms (Looping ctx c dom ls) = (Looping ctx c' dom' ls', out).
Proof.
  induction 1 as [c|c d0 l0 e m i c1 ms cs c2 R0 Ha Hu L IH|c d0 l0 e m ms cs c2 R0 Hn Hc Hw L IH]; intros dom ls doms out Hr F U.
  - inversion F; subst. inversion U; subst. exists dom, ls. split; [exact Hr|reflexivity].
  - assert (d0 = dom /\ l0 = ls) as [-> ->] by (split; congruence).
    inversion F as [|? d1 ? doms' (l1 & R1) F1]; subst. inversion U as [|? ? ? os outs Hd U1]; subst.
    destruct (IH _ _ _ _ R1 F1 U1) as (dom' & ls' & R & Hrun). exists dom', ls'. split; [exact R|].
    cbn [run receive fst snd]. rewrite (iteration_asks _ _ _ _ _ _ _ Ha). unfold update_and_diff, perform_diff. rewrite Hu, R1, Hd, Hrun. reflexivity.
  - assert (d0 = dom /\ l0 = ls) as [-> ->] by (split; congruence).
    destruct (IH _ _ _ _ Hr F U) as (dom' & ls' & R & Hrun). exists dom', ls'. split; [exact R|].
    cbn [run receive fst snd]. rewrite (iteration_idle _ _ _ _ _ _ Hn Hc Hw), Hrun. reflexivity.
Qed.

Theorem main_loop_spec data e0 p ms ctx c dom ls out :
  main_loop C data true ((e0, WhoAmI p) :: ms) = (Looping ctx c dom ls, out) <->
  ctx = p /\ c_render C c = Some (dom, ls) /\
  exists c0 d0 l0 cs doms outs, c_new C e0 data p = Some c0 /\ c_render C c0 = Some (d0, l0) /\ lives C p c0 ms cs c /\
    Forall2 (fun x d => exists l, c_render C x = Some (d, l)) cs doms /\ updates d0 doms outs /\
    out = wire (create_from_scratch d0 None) :: outs.
Proof.
  unfold main_loop. cbn [run receive fst snd start]. split.
  - intros H. destruct (c_new C e0 data p) as [c0|] eqn:En; [|rewrite run_panicked in H; discriminate].
    destruct (c_render C c0) as [[d0 l0]|] eqn:Er; [|rewrite run_panicked in H; discriminate]. cbn [diff] in H.
    destruct (run C data true ms (Looping p c0 d0 l0)) as [p2 o2] eqn:E2. injection H as -> <-.
    destruct (loop_lives _ _ _ _ _ _ _ _ _ _ _ _ Er E2) as (-> & R & cs & doms & L & F & U). split; [reflexivity|]. split; [exact R|].
    exists c0, d0, l0, cs, doms, o2. split; [reflexivity|]. auto.
  - intros (-> & R & c0 & d0 & l0 & cs & doms & outs & En & Er & L & F & U & ->). rewrite En, Er. cbn [diff].
    destruct (lives_loop data true _ _ _ _ _ L _ _ _ _ Er F U) as (dom' & ls' & R' & ->). assert (dom' = dom /\ ls' = ls) as [-> ->] by (split; congruence).
    reflexivity.
Qed.

Lemma lives_last ctx c ms cs c' : lives C ctx c ms cs c' -> c' = last cs c.
Proof.
  assert (forall (x : S) l d, last (x :: l) d = last l x) as Hlast.
  { intros x l. revert x. induction l as [|z l IHl]; intros x d0; [reflexivity|]. change (last (x :: z :: l) d0) with (last (z :: l) d0). rewrite (IHl z d0). symmetry. apply IHl. }
  induction 1; [reflexivity| |assumption]. rewrite Hlast. assumption.
Qed.
Lemma pages_last cs doms : Forall2 (fun x d => exists l, c_render C x = Some (d, l)) cs doms -> forall c d l d' l',
  c_render C c = Some (d, l) -> c_render C (last cs c) = Some (d', l') -> d' = last doms d.
Proof.
  induction 1 as [|c1 d1 cs doms (l1 & R1) F IH]; intros c d l d' l' Hr Hl.
  - cbn [last] in *. congruence.
  - destruct F as [|c2 d2 cs doms R2 F].
    + cbn [last] in *. congruence.
    + apply (IH c d l d' l' Hr). exact Hl.
Qed.

Lemma updates_length d doms outs : updates d doms outs -> length outs = length doms.
Proof. induction 1; cbn; congruence. Qed.

(** Stopping. *)
Lemma run_closed data sent ms1 e ms2 p ctx c dom ls out :
  run C data sent ms1 p = (Looping ctx c dom ls, out) ->
  run C data sent (ms1 ++ (e, Ws (inr WsModel.ConnectionClosed)) :: ms2) p = (Returned c, out).
Proof. intros H. rewrite run_app, H. cbn [run receive fst snd iteration]. rewrite run_returned. cbn [app]. now rewrite app_nil_r. Qed.

(** Staying alive. *)
Definition harmless (c : S) (dom : element) (ls : hmap (handler I)) (ctx : P) (e : E) (m : mail) : Prop :=
  forall i, asks ls m i -> exists c1 d1 l1, c_update C e c i ctx = Some c1 /\ c_render C c1 = Some (d1, l1) /\ diff dom (Some d1) <> None.
Lemma receive_alive data sent e m ctx c dom ls : ~ closing m -> ~ identity m -> harmless c dom ls ctx e m ->
  exists c' dom' ls' out, receive C data sent (e, m) (Looping ctx c dom ls) = (Looping ctx c' dom' ls', out).
Proof.
  intros Hc Hw Hh. cbn [receive fst snd]. destruct (classify ls m) as [[i Hi]|[Hn [H|[H|_]]]]; [| contradiction | contradiction |].
  - rewrite (iteration_asks _ _ _ _ _ _ _ Hi). destruct (Hh i Hi) as (c1 & d1 & l1 & Hu & Hr & Hd). unfold update_and_diff, perform_diff. rewrite Hu, Hr.
    destruct (diff dom (Some d1)); [eauto|congruence].
  - rewrite (iteration_idle _ _ _ _ _ _ Hn Hc Hw). eauto.
Qed.

Lemma sound_alive data p Inv Allowed : sound C data p Inv Allowed -> forall e0 ms,
  Forall Allowed ms -> Forall (fun em => ~ identity (snd em)) ms ->
  fst (main_loop C data true ((e0, WhoAmI p) :: ms)) <> Panicked.
Proof.
  intros (Hn & Hr & Hu) e0 ms HA HI. unfold main_loop. cbn [run receive fst snd start].
  destruct (Hn e0) as (c0 & -> & I0). destruct (Hr c0 I0) as (d0 & l0 & R0). rewrite R0. cbn [diff].
  assert (forall c d l, Inv c -> c_render C c = Some (d, l) -> fst (run C data true ms (Looping p c d l)) <> Panicked) as H.
  { clear -Hr Hu HA HI. induction ms as [|[e m] ms IH]; intros c d l Hi R; [cbn; discriminate|].
    inversion HA as [|? ? A1 A2]; subst. inversion HI as [|? ? B1 B2]; subst. cbn [snd] in B1. cbn [run receive fst snd].
    destruct (classify l m) as [[i Hq]|[Hq [Hc|[Hw|[Hc Hw]]]]].
    - rewrite (iteration_asks _ _ _ _ _ _ _ Hq). unfold update_and_diff, perform_diff. destruct (Hu _ _ _ _ _ _ Hi R A1 Hq) as (c1 & -> & I1 & Hd).
      destruct (Hr c1 I1) as (d1 & l1 & R1). rewrite R1. destruct (diff d (Some d1)) eqn:Ed; [|exfalso; now apply (Hd d1 l1)].
      specialize (IH A2 B2 c1 d1 l1 I1 R1). destruct (run C data true ms _) as [p2 o2]. exact IH.
    - rewrite Hc. cbn [iteration]. rewrite run_returned. cbn. discriminate.
    - contradiction.
    - rewrite (iteration_idle _ _ _ _ _ _ Hq Hc Hw). specialize (IH A2 B2 c d l Hi R). destruct (run C data true ms _) as [p2 o2]. exact IH. }
  specialize (H c0 d0 l0 I0 R0). destruct (run C data true ms _) as [p2 o2]. exact H.
Qed.
Lemma sound_closed data p Inv Allowed : sound C data p Inv Allowed -> forall e0 ms,
  Forall Allowed ms -> Forall (fun em => ~ identity (snd em)) ms -> (exists e, In (e, Ws (inr WsModel.ConnectionClosed)) ms) ->
  exists c out, main_loop C data true ((e0, WhoAmI p) :: ms) = (Returned c, out) /\ Inv c.
Proof.
  intros (Hn & Hr & Hu) e0 ms HA HI Hin. unfold main_loop. cbn [run receive fst snd start].
  destruct (Hn e0) as (c0 & -> & I0). destruct (Hr c0 I0) as (d0 & l0 & R0). rewrite R0. cbn [diff].
  assert (forall c d l, Inv c -> c_render C c = Some (d, l) -> exists c' out, run C data true ms (Looping p c d l) = (Returned c', out) /\ Inv c') as H.
  { clear -Hr Hu HA HI Hin. destruct Hin as (e1 & Hin). induction ms as [|[e m] ms IH]; intros c d l Hi R; [destruct Hin|].
    inversion HA as [|? ? A1 A2]; subst. inversion HI as [|? ? B1 B2]; subst. cbn [snd] in B1. cbn [run receive fst snd].
    assert (closing m \/ In (e1, Ws (inr WsModel.ConnectionClosed)) ms) as [Hc|Hin'].
    { destruct Hin as [[= <- ->]|Hin]; [now left|now right]. }
    { rewrite Hc. cbn [iteration]. rewrite run_returned. eauto. }
    destruct (classify l m) as [[i Hq]|[Hq [Hc|[Hw|[Hc Hw]]]]].
    - rewrite (iteration_asks _ _ _ _ _ _ _ Hq). unfold update_and_diff, perform_diff. destruct (Hu _ _ _ _ _ _ Hi R A1 Hq) as (c1 & -> & I1 & Hd).
      destruct (Hr c1 I1) as (d1 & l1 & R1). rewrite R1. destruct (diff d (Some d1)) eqn:Ed; [|exfalso; now apply (Hd d1 l1)].
      destruct (IH A2 B2 Hin' c1 d1 l1 I1 R1) as (c' & o' & -> & Hc'). eauto.
    - rewrite Hc. cbn [iteration]. rewrite run_returned. eauto.
    - contradiction.
    - rewrite (iteration_idle _ _ _ _ _ _ Hq Hc Hw). destruct (IH A2 B2 Hin' c d l Hi R) as (c' & o' & -> & Hc'). eauto. }
  destruct (H c0 d0 l0 I0 R0) as (c' & o' & -> & Hc'). eauto.
Qed.
Lemma noise_idle (ls : hmap (handler I)) (m : mail) : noise ls m -> (forall i, ~ asks ls m i) /\ ~ closing m /\ ~ identity m.
Proof.
  intros (r & -> & Hr & H). split; [|split].
  - intros i Hi. inversion Hi as [|? ? ? ? H1 H2|? ? ? ? H1 H2|? ? ? ? H1 H2]; subst; destruct (H _ _ _ eq_refl H1) as [H3|[H3 (call' & H4)]]; congruence.
  - intros [= ->]. now apply Hr.
  - intros (p & Hp). discriminate.
Qed.
Lemma noise_skipped data sent ns ctx c dom ls : Forall (fun em => noise ls (snd em)) ns ->
  run C data sent ns (Looping ctx c dom ls) = (Looping ctx c dom ls, []).
Proof.
  induction 1 as [|[e m] ns H _ IH]; [reflexivity|]. cbn [run receive fst snd]. destruct (noise_idle _ _ H) as (H1 & H2 & H3).
  rewrite (iteration_idle _ _ _ _ _ _ H1 H2 H3), IH. reflexivity.
Qed.
End Comp.

(* ------------------------------------------------------------------ *)
(** ** Sessions *)

Section Session.
Context {D I S E P : Type} (C : component D I S E P) (ctx : P).
Context (Inv : S -> Prop) (Rel : element -> element -> Prop).
Context (Hstep : forall e c i c' d l d' l', Inv c -> c_update C e c i ctx = Some c' ->
           c_render C c = Some (d, l) -> c_render C c' = Some (d', l') -> Inv c' /\ Rel d d').

Lemma lives_chain c ms cs c' : lives C ctx c ms cs c' -> forall d l doms, Inv c -> c_render C c = Some (d, l) ->
  Forall2 (fun x d => exists l, c_render C x = Some (d, l)) cs doms ->
  Inv c' /\ linked Rel d doms.
Proof.
  induction 1 as [c|c d0 l0 e m i c1 ms cs c2 R0 Ha Hu L IH|c d0 l0 e m ms cs c2 R0 Hn Hc Hw L IH]; intros d l doms Hi Hr F.
  - inversion F; subst. split; [exact Hi|]. exact Logic.I.
  - inversion F as [|? d1 ? doms' (l1 & R1) F1]; subst. destruct (Hstep _ _ _ _ _ _ _ _ Hi Hu Hr R1) as [Hi1 Hrel].
    destruct (IH _ _ _ Hi1 R1 F1) as (H2 & H3). split; [exact H2|]. now split.
  - now apply (IH d l).
Qed.
End Session.

(** The client that applies changesets. *)
Lemma chain_apply max doms : forall d outs, updates d doms outs ->
  linked (fun a b => proper max a /\ proper max b /\ safe a b) d doms ->
  exists oss, outs = map wire oss /\ forall x, view x d -> exists y, apply_all max oss x = Some y /\ view y (last doms d).
Proof.
  assert (forall (x : element) l d, last (x :: l) d = last l x) as Hlast.
  { intros x l. revert x. induction l as [|z l IHl]; intros x d0; [reflexivity|]. change (last (x :: z :: l) d0) with (last (z :: l) d0). rewrite (IHl z d0). symmetry. apply IHl. }
  induction doms as [|d1 doms IH]; intros d outs U H; inversion U as [|? ? ? os outs' Hd U1]; subst.
  - exists []. split; [reflexivity|]. intros x V. exists x. auto.
  - destruct H as [(P1 & P2 & Hs) H]. destruct (IH _ _ U1 H) as (oss & -> & H2). destruct (diff_applies max d d1 P1 P2 Hs) as (os' & Ho & H1).
    assert (os' = os) as -> by congruence. exists (os :: oss). split; [reflexivity|]. intros x V. destruct (H1 x V) as (y & A & Vy).
    cbn [apply_all]. rewrite A, Hlast. auto.
Qed.
(** The browser. *)
Definition bok (e : element) : Prop := every (fun e => hm_wf (el_attrs e)) e /\ clean e.
Lemma chain_browse reparse doms : InnerHtml.standard reparse -> forall d outs, updates d doms outs ->
  linked (fun a b => bok a /\ bok b /\ safe_with browser_pair a b) d doms ->
  forall x, shows x d -> exists y, browse reparse outs [x] = ([y], true) /\ shows y (last doms d).
Proof.
  assert (forall (x : element) l d, last (x :: l) d = last l x) as Hlast.
  { intros x l. revert x. induction l as [|z l IHl]; intros x d0; [reflexivity|]. change (last (x :: z :: l) d0) with (last (z :: l) d0). rewrite (IHl z d0). symmetry. apply IHl. }
  intros Hr. induction doms as [|d1 doms IH]; intros d outs U H x V; inversion U as [|? ? ? os outs' Hd U1]; subst.
  - exists x. auto.
  - destruct H as [(P1 & P2 & Hs) H]. destruct (browser_updates reparse Hr d d1 Hs P1 P2) as (os' & Ho & H1).
    assert (os' = os) as -> by congruence. destruct (H1 x V) as (y & Vy & Ry). destruct (IH _ _ U1 H y Vy) as (z & Rz & Vz).
    exists z. cbn [browse]. rewrite Ry, Rz, Hlast. auto.
Qed.

(* ------------------------------------------------------------------ *)
(** ** The processes of [manage] *)

Section Manage.
Context {I P : Type} (self : P).
Definition inv (s : system I P) : Prop :=
  match sup s with
  | SpawnLoop => comp_box s = None /\ reader s = false /\ sup_box s = posted s /\ seen s = []
  | TellIdentity => comp_box s = Some ([], []) /\ reader s = false /\ sup_box s = posted s /\ seen s = []
  | SpawnReader => reader s = false /\ sup_box s = posted s /\ seen s = [] /\ exists q t, comp_box s = Some (q, t) /\ t ++ q = [WhoAmI self]
  | Forwarding => reader s = true /\ exists q t rest, comp_box s = Some (q, t) /\ t ++ q = WhoAmI self :: rest /\
       Forall (fun m => ~ identity m) rest /\ inputs_of rest ++ sup_box s = posted s /\ ws_of rest = seen s
  end.
Lemma inputs_of_app (l1 l2 : list (mail I P)) : inputs_of (l1 ++ l2) = inputs_of l1 ++ inputs_of l2.
Proof. apply flat_map_app. Qed.
Lemma ws_of_app (l1 l2 : list (mail I P)) : ws_of (l1 ++ l2) = ws_of l1 ++ ws_of l2.
Proof. apply flat_map_app. Qed.
Lemma reachable_inv s : reachable self s -> inv s.
Proof.
  induction 1 as [|s s' _ IH Hs]; [now repeat split|]. unfold inv in *. inversion Hs; subst; cbn [sup sup_box comp_box reader posted seen].
  - destruct (sup s).
    + destruct IH as (H1 & H2 & H3 & H4). now rewrite H3.
    + destruct IH as (H1 & H2 & H3 & H4). now rewrite H3.
    + destruct IH as (H1 & H2 & H3). now rewrite H2.
    + destruct IH as (H1 & q & t & rest & H2 & H3 & H4 & H5 & H6). split; [exact H1|]. exists q, t, rest. repeat split; auto. rewrite app_assoc. now f_equal.
  - rewrite H in IH. tauto.
  - rewrite H in IH. destruct IH as (H1 & H2 & H3 & H4). rewrite H1 in H0. injection H0 as <- <-. repeat split; auto. exists [WhoAmI self], []. auto.
  - rewrite H in IH. destruct IH as (H1 & H2 & H3 & q & t & H4 & H5). split; [reflexivity|]. exists q, t, []. rewrite H3. repeat split; auto.
  - rewrite H in IH |- *. destruct IH as (H2 & q' & t' & rest & H3 & H4 & H5 & H6 & H7). rewrite H3 in H1. injection H1 as -> ->.
    split; [exact H2|]. exists (q ++ [Input i]), t, (rest ++ [Input i]). split; [reflexivity|]. split; [rewrite app_assoc, H4; reflexivity|]. split.
    + apply Forall_app. split; [exact H5|]. constructor; [|constructor]. intros (p & Hp). discriminate.
    + rewrite inputs_of_app, ws_of_app. cbn [inputs_of ws_of flat_map app]. rewrite app_nil_r. split; [|exact H7]. rewrite <- app_assoc. rewrite H0 in H6. exact H6.
  - destruct (sup s); try (destruct IH as (? & ? & ?); congruence).
    destruct IH as (H2 & q' & t' & rest & H3 & H4 & H5 & H6 & H7). rewrite H3 in H0. injection H0 as -> ->.
    split; [exact H2|]. exists (q ++ [Ws r]), t, (rest ++ [Ws r]). split; [reflexivity|]. split; [rewrite app_assoc, H4; reflexivity|]. split.
    + apply Forall_app. split; [exact H5|]. constructor; [|constructor]. intros (p & Hp). discriminate.
    + rewrite inputs_of_app, ws_of_app. cbn [inputs_of ws_of flat_map app]. rewrite app_nil_r. split; [exact H6|]. now rewrite H7.
  - destruct (sup s).
    + destruct IH as (? & ?). congruence.
    + destruct IH as (? & ?). congruence.
    + destruct IH as (H1 & H2 & H3 & q' & t' & H4 & H5). rewrite H4 in H. injection H as -> ->. repeat split; auto.
      exists q, (t ++ [m]). split; [reflexivity|]. now rewrite <- app_assoc.
    + destruct IH as (H2 & q' & t' & rest & H3 & H4 & H5 & H6 & H7). rewrite H3 in H. injection H as -> ->. split; [exact H2|].
      exists q, (t ++ [m]), rest. split; [reflexivity|]. split; [now rewrite <- app_assoc|]. auto.
Qed.
End Manage.

(* ------------------------------------------------------------------ *)
(** ** Events *)

Lemma client_message_listener name : client_message (print_json (JObj [field (bs "listener") name])) = Some (name, None).
Proof.
  unfold client_message. rewrite json_round_trip.
  - reflexivity.
  - repeat constructor.
  - cbn. lia.
Qed.
Lemma client_message_value name value :
  client_message (print_json (JObj [field (bs "listener") name; (bs "payload", JObj [field (bs "value") value])])) = Some (name, Some value).
Proof.
  unfold client_message. rewrite json_round_trip.
  - reflexivity.
  - repeat constructor.
  - cbn. lia.
Qed.
