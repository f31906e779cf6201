(** Component processes: C60-C63, C72, C73. *)
From Verif Require InnerHtml.
From Verif Require Import Base HMap Num Json DomModel DomSpec DomProofs DomProofs2 DomProofs3 DomProofs4 HtmlModel
  ClientModel ClientSpec ClientProofs ClientProofs2 ComponentModel JsonSpec JsonProofs ComponentSpec ComponentProofs ComponentProofs2 PropClient.
From Verif Require Import Io WsSpec WsBridge WsProofs2 WsProofs3 WsLemmas.
From Verif Require WsModel.
From Coq Require Import Lia.

(* ------------------------------------------------------------------ *)
(** ** A component for the examples: a to-do list. Typing into the field adds an item, a click on the second
    node clears the list, a programme may add items too. *)
Inductive todo_input := Add (t : str) | Clear | Crash.
Fixpoint rows (i : N) (l : list str) : list element :=
  match l with [] => [] | t :: l' => Element i (bs "p") [] [] [] (Some t) None :: rows (i + 1) l' end.
Definition todo_page (l : list str) : element :=
  Element 0 (bs "div") [] []
    (Element 1 (bs "input") [(bs "type", bs "text")] [Listener (bs "add") (bs "input")] [] None None
     :: Element 2 (bs "p") [] [Listener (bs "clear") (bs "click")] [] (Some (bs "clear all")) None
     :: rows 3 l) None None.
Definition todo_list : component unit todo_input (list str) unit nat := {|
  c_new := fun _ _ _ => Some [];
  c_update := fun _ l i _ => match i with Add t => Some (l ++ [t]) | Clear => Some [] | Crash => None end;
  c_render := fun l => Some (todo_page l, [(bs "add", OnInput Add); (bs "clear", OnClick Clear)]) |}.
Definition text_msg (text : str) : unit * mail todo_input nat := (tt, Ws (inl (WsModel.Text text))).
Definition session : list (unit * mail todo_input nat) :=
  [text_msg (bs "{""listener"":""add"",""payload"":{""value"":""milk""}}");
   text_msg (bs "nonsense"); (tt, Input (Add (bs "1+1"))); (tt, Ws (inr WsModel.ClientError));
   text_msg (bs "{""listener"":""add""}"); text_msg (bs "{""listener"":""gone""}")].

Lemma rows_numbered l : forall i, numbered_list i (rows i l) (i + N.of_nat (length l)).
Proof.
  induction l as [|t l IH]; intros i; cbn [rows length].
  - rewrite N.add_0_r. constructor.
  - econstructor; [constructor; constructor|]. replace (i + N.of_nat (S (length l)))%N with (i + 1 + N.of_nat (length l))%N by lia. apply IH.
Qed.
Lemma todo_numbered l : numbered 0 (todo_page l) (3 + N.of_nat (length l)).
Proof. constructor. econstructor; [constructor; constructor|]. econstructor; [constructor; constructor|]. apply rows_numbered. Qed.
Lemma todo_unkeyed l : unkeyed (todo_page l).
Proof.
  constructor; [reflexivity|]. cbn [el_children todo_page]. repeat constructor. generalize 3%N. induction l; intros i; constructor; auto. repeat constructor.
Qed.
Lemma rows_proper max l : forall i, (i + N.of_nat (length l) <= max)%N -> Forall (proper max) (rows i l).
Proof.
  induction l as [|t l IH]; intros i Hi; cbn [rows length] in *; constructor.
  - constructor; [|constructor]. cbn. split; [lia|constructor].
  - apply IH. lia.
Qed.
Lemma todo_proper max l : (3 + N.of_nat (length l) <= max)%N -> proper max (todo_page l).
Proof.
  intros H. constructor; [cbn; split; [lia|constructor]|]. cbn [todo_page el_children]. constructor; [|constructor].
  - constructor; [|constructor]. cbn. split; [lia|]. repeat constructor. cbn. tauto.
  - constructor; [|constructor]. cbn. split; [lia|constructor].
  - now apply rows_proper.
Qed.
Lemma rows_fit l : forall i l', fits_list (rows i l) (rows i l').
Proof.
  induction l as [|t l IH]; intros i l'; [constructor|]. destruct l' as [|t' l']; [constructor|]. cbn [rows]. constructor; [|apply IH].
  apply FitsSame; [reflexivity|constructor].
Qed.
Lemma todo_fits l l' : fits (todo_page l) (todo_page l').
Proof. apply FitsSame; [reflexivity|]. cbn. repeat (constructor; [apply FitsSame; [reflexivity|constructor]|]). apply rows_fit. Qed.
Lemma rows_match l : forall i l', matched_list browser_pair (rows i l) (rows i l').
Proof.
  induction l as [|t l IH]; intros i l'; [constructor|]. destruct l' as [|t' l']; [constructor|]. cbn [rows]. constructor; [|apply IH].
  constructor; [|constructor]. split; [now left|]. split; [|now left]. right. left. now exists t'.
Qed.
Lemma todo_match l l' : matched browser_pair (todo_page l) (todo_page l').
Proof.
  assert (forall a, el_children a = [] -> matched browser_pair a a) as Hs.
  { intros a Ha. constructor; [|rewrite Ha; constructor]. repeat split; left; reflexivity. }
  constructor; [repeat split; left; reflexivity|]. cbn. repeat (constructor; [now apply Hs|]). apply rows_match.
Qed.
Lemma todo_clean l : clean (todo_page l).
Proof.
  assert (forall e, el_children e = [] -> cleanb e = true -> clean e) as Hc by (intros; now apply cleanb_ok).
  constructor.
  - pose proof (every_root _ _ (Hc (Element 0 (bs "div") [] [] [] None None) eq_refl eq_refl)) as H. exact H.
  - cbn [todo_page el_children]. constructor; [now apply cleanb_ok|]. constructor; [now apply cleanb_ok|]. generalize 3%N.
    induction l as [|t l IH]; intros i; constructor; [|apply IH]. now apply cleanb_ok.
Qed.
Lemma todo_safe l l' : safe_with browser_pair (todo_page l) (todo_page l').
Proof. eapply fits_safe_with; eauto using todo_numbered, todo_unkeyed, todo_fits, todo_match. Qed.

(* ------------------------------------------------------------------ *)
(** ** C60. A process whose identity was announced first is in its loop after a history exactly if the
    component [lives] through it; then the page and the handlers it keeps are those of its current state, and
    it has sent the first page and after that one changeset per update, relative to the page before. *)
Theorem C60_snapshot_current : forall D I S E P (C : component D I S E P) data e0 p ms ctx c dom ls out,
  main_loop C data true ((e0, WhoAmI p) :: ms) = (Looping ctx c dom ls, out) <->
  ctx = p /\ c_render C c = Some (dom, ls) /\
  exists c0 d0 l0 cs doms outs, c_new C e0 data p = Some c0 /\ c_render C c0 = Some (d0, l0) /\
    lives C p c0 ms cs c /\ pages C cs doms /\ updates d0 doms outs /\
    out = wire (create_from_scratch d0 None) :: outs.
Proof. exact @main_loop_spec. Qed.
Print Assumptions C60_snapshot_current.
(** One message per update. *)
Theorem C60_one_message_per_update : forall D I S E P (C : component D I S E P) data e0 p ms ctx c dom ls out,
  main_loop C data true ((e0, WhoAmI p) :: ms) = (Looping ctx c dom ls, out) ->
  exists c0 cs, c_new C e0 data p = Some c0 /\ lives C p c0 ms cs c /\ length out = 1 + length cs.
Proof.
  intros D I S E P C data e0 p ms ctx c dom ls out H. apply main_loop_spec in H as (_ & _ & c0 & d0 & l0 & cs & doms & outs & H1 & H2 & H3 & H4 & H5 & ->).
  exists c0, cs. split; [exact H1|]. split; [exact H3|]. cbn [length]. rewrite (updates_length _ _ _ H5). unfold pages in H4. f_equal. clear -H4. induction H4 as [|x y l l' Hxy Hl IH]; [reflexivity|]. cbn [length]. now rewrite IH.
Qed.
Print Assumptions C60_one_message_per_update.
Example C60_example : exists dom ls out, main_loop todo_list tt true ((tt, WhoAmI 7) :: session) = (Looping 7 [bs "milk"; bs "1+1"] dom ls, out) /\
  dom = todo_page [bs "milk"; bs "1+1"] /\ length out = 3.
Proof. eexists _, _, _. split; [vm_compute; reflexivity|]. split; vm_compute; reflexivity. Qed.

(* ------------------------------------------------------------------ *)
(** ** C61. After the close of the connection nothing is processed and nothing is sent: the process has
    returned, dropping the component as it was. *)
Theorem C61_stops_on_close : forall D I S E P (C : component D I S E P) data ms1 e ms2 ctx c dom ls out,
  main_loop C data true ms1 = (Looping ctx c dom ls, out) ->
  main_loop C data true (ms1 ++ (e, Ws (inr WsModel.ConnectionClosed)) :: ms2) = (Returned c, out).
Proof. intros. eapply run_closed; eauto. Qed.
Print Assumptions C61_stops_on_close.
(** It returns for no other reason. *)
Theorem C61_stops_only_on_close : forall D I S E P (C : component D I S E P) data sent ms c out,
  main_loop C data sent ms = (Returned c, out) -> exists e, In (e, Ws (inr WsModel.ConnectionClosed)) ms.
Proof.
  intros D I S E P C data sent ms c out. unfold main_loop.
  assert (forall p, (forall c', p <> Returned c') -> run C data sent ms p = (Returned c, out) -> exists e, In (e, Ws (inr WsModel.ConnectionClosed)) ms) as H.
  2: { apply H. discriminate. }
  revert out. induction ms as [|[e m] ms IH]; intros out p Hp H.
  - cbn in H. injection H as -> _. exfalso. now apply (Hp c).
  - cbn [run] in H. destruct (receive C data sent (e, m) p) as [p1 o1] eqn:E1. destruct (run C data sent ms p1) as [p2 o2] eqn:E2. injection H as -> <-.
    destruct p1 as [|ctx1 c1 d1 l1|c1|].
    + assert (exists e', In (e', Ws (inr WsModel.ConnectionClosed)) ms) as (e' & He) by (refine (IH o2 _ _ E2); intros c' Hc'; discriminate Hc'). exists e'. now right.
    + assert (exists e', In (e', Ws (inr WsModel.ConnectionClosed)) ms) as (e' & He) by (refine (IH o2 _ _ E2); intros c' Hc'; discriminate Hc'). exists e'. now right.
    + destruct p as [|ctx0 c0 d0 l0|c0|]; cbn [receive fst snd] in E1.
      * unfold start in E1. destruct m; try discriminate. destruct (c_new _ _ _ _); [|discriminate]. destruct (c_render _ _) as [[? ?]|]; [|discriminate].
        destruct (diff _ _); [|discriminate]. destruct sent; discriminate.
      * exists e. left. f_equal. destruct (classify l0 m) as [[i Hi]|[Hn [Hc|[Hw|[Hc Hw]]]]].
        -- rewrite (iteration_asks _ _ _ _ _ _ _ _ Hi) in E1. unfold update_and_diff, perform_diff in E1.
           destruct (c_update _ _ _ _ _); [|discriminate]. destruct (c_render _ _) as [[? ?]|]; [|discriminate]. destruct (diff _ _); discriminate.
        -- exact Hc.
        -- destruct Hw as (q & ->). discriminate.
        -- rewrite (iteration_idle _ _ _ _ _ _ _ Hn Hc Hw) in E1. discriminate.
      * exfalso. now apply (Hp c0).
      * discriminate.
    + exfalso. rewrite run_panicked in E2. discriminate.
Qed.
Print Assumptions C61_stops_only_on_close.
(** Messages it has no use for make no difference, now or later. *)
Theorem C61_noise_ignored : forall D I S E P (C : component D I S E P) data sent ms1 ns ms2 ctx c dom ls out,
  main_loop C data sent ms1 = (Looping ctx c dom ls, out) -> Forall (fun em => noise ls (snd em)) ns ->
  main_loop C data sent (ms1 ++ ns ++ ms2) = main_loop C data sent (ms1 ++ ms2).
Proof.
  intros D I S E P C data sent ms1 ns ms2 ctx c dom ls out H Hn. unfold main_loop in *. rewrite (run_app C data sent ms1 (ns ++ ms2)), (run_app C data sent ms1 ms2), H.
  rewrite run_app, (noise_skipped _ _ _ _ _ _ _ _ Hn). destruct (run C data sent ms2 _). reflexivity.
Qed.
Print Assumptions C61_noise_ignored.
(** A component whose own code does not fail keeps running: the process does not panic. *)
Theorem C61_never_panics : forall D I S E P (C : component D I S E P) data p Inv Allowed, sound C data p Inv Allowed ->
  forall e0 ms, Forall Allowed ms -> Forall (fun em => ~ identity (snd em)) ms ->
  fst (main_loop C data true ((e0, WhoAmI p) :: ms)) <> Panicked.
Proof. exact @sound_alive. Qed.
Print Assumptions C61_never_panics.
Lemma todo_sound : sound todo_list tt 7 (fun _ => True) (fun em => snd em <> Input Crash).
Proof.
  split; [intros e; exists []; now split|]. split; [intros c _; eexists _, _; reflexivity|]. intros e m c d l i _ R A Ha. injection R as <- <-.
  assert (exists c', c_update todo_list e c i 7 = Some c') as (c' & Hc).
  { destruct i; [now eexists|now eexists|]. exfalso. inversion Ha as [|? n ? ? _ Hg|? n ? ? _ Hg|? n ? ? _ Hg]; subst; [now apply A|..];
    cbn [get] in Hg; (destruct (str_eqb n (bs "add")); [try discriminate|destruct (str_eqb n (bs "clear")); discriminate]). injection Hg as <-. discriminate. }
  exists c'. split; [exact Hc|]. split; [exact Logic.I|]. intros d' l' [= <- <-]. 
  destruct (browser_updates InnerHtml.plain_browser InnerHtml.plain_browser_standard (todo_page c) (todo_page c') (todo_safe c c')) as (os & -> & _).
  - split; [|apply todo_clean]. apply (proper_wf (3 + N.of_nat (length c))). now apply todo_proper.
  - split; [|apply todo_clean]. apply (proper_wf (3 + N.of_nat (length c'))). now apply todo_proper.
  - discriminate.
Qed.
Example C61_example : exists dom out, main_loop todo_list tt true ((tt, WhoAmI 7) :: session) = (Looping 7 [bs "milk"; bs "1+1"] dom [(bs "add", OnInput Add); (bs "clear", OnClick Clear)], out) /\
  Forall (fun em => noise [(bs "add", OnInput Add); (bs "clear", OnClick Clear)] (snd em)) (skipn 3 session) /\ length (skipn 3 session) = 3 /\
  main_loop todo_list tt true (((tt, WhoAmI 7) :: session) ++ (tt, Ws (inr WsModel.ConnectionClosed)) :: session) = (Returned [bs "milk"; bs "1+1"], out).
Proof.
  eexists _, _. split; [vm_compute; reflexivity|]. split; [|split; vm_compute; reflexivity]. cbn [session skipn].
  constructor; [|constructor; [|constructor; [|constructor]]]; (eexists; split; [reflexivity|]; split; [discriminate|]).
  - intros text name payload [=].
  - intros text name payload [= <-] H. apply says_iff in H. vm_compute in H. injection H as <- <-. right. split; [reflexivity|]. now exists Add.
  - intros text name payload [= <-] H. apply says_iff in H. vm_compute in H. injection H as <- <-. now left.
Qed.

(* ------------------------------------------------------------------ *)
(** ** C62. In every reachable state of the three processes, with [t] the messages the component process has
    taken and [q] those waiting: the first is its identity, no other identity follows, the inputs arrive in the
    order they were sent to the process (the last ones are still with the supervisor), and so do the results
    of reading the WebSocket. *)
Theorem C62_identity_first : forall I P (self : P) (s : system I P), reachable self s ->
  forall q t, comp_box s = Some (q, t) -> t ++ q = [] \/
    exists rest, t ++ q = WhoAmI self :: rest /\ (forall m p, In m rest -> m <> WhoAmI p) /\
      inputs_of rest ++ sup_box s = posted s /\ ws_of rest = seen s.
Proof.
  intros I P self s H q t Hb. pose proof (reachable_inv _ _ H) as Hi. unfold inv in Hi. destruct (sup s).
  - destruct Hi as (H1 & _). congruence.
  - destruct Hi as (H1 & _). left. rewrite H1 in Hb. now injection Hb as <- <-.
  - destruct Hi as (H1 & H2 & H3 & q' & t' & H4 & H5). rewrite H4 in Hb. injection Hb as -> ->. right. exists []. rewrite H3. repeat split; auto.
  - destruct Hi as (H2 & q' & t' & rest & H3 & H4 & H5 & H6 & H7). rewrite H3 in Hb. injection Hb as -> ->. right. exists rest. repeat split; auto.
    intros m p Hm ->. rewrite Forall_forall in H5. apply (H5 _ Hm). now exists p.
Qed.
Print Assumptions C62_identity_first.
(** So the component process, on what it takes in any schedule, reaches none of its [unreachable!()]: with a
    component whose own code does not fail it does not panic. *)
Theorem C62_no_unreachable : forall D I S E P (C : component D I S E P) data self Inv, sound C data self Inv (fun _ => True) ->
  forall s, reachable self s -> forall q t, comp_box s = Some (q, t) ->
  forall ms, map snd ms = t -> fst (main_loop C data true ms) <> Panicked.
Proof.
  intros D I S E P C data self Inv Hs s Hr q t Hb ms Ht. destruct ms as [|[e0 m0] ms]; [cbn; discriminate|].
  destruct (C62_identity_first _ _ _ _ Hr _ _ Hb) as [H|(rest & H & Hn & _)].
  - rewrite <- Ht in H. discriminate.
  - rewrite <- Ht in H. cbn [map snd app] in H. injection H as -> H. apply (sound_alive C data self Inv (fun _ => True) Hs).
    + apply Forall_forall. easy.
    + apply Forall_forall. intros [e m] Hm (p & Hp). cbn [snd] in Hp. apply (Hn m p); [|exact Hp]. rewrite <- H. apply in_or_app. left. apply (in_map snd) in Hm. exact Hm.
Qed.
Print Assumptions C62_no_unreachable.
Example C62_example : exists s : system todo_input nat, reachable 7 s /\
  comp_box s = Some ([Input (Add (bs "b"))], [WhoAmI 7; Ws (inr WsModel.ClientError); Input (Add (bs "a"))]) /\
  posted s = [Add (bs "a"); Add (bs "b"); Clear].
Proof.
  assert (reachable (I := todo_input) 7 sys_init) as H by constructor.
  eapply reach_step in H; [|apply (post 7 _ (Add (bs "a")))]. cbn in H.
  eapply reach_step in H; [|apply (spawn_loop 7); reflexivity]. cbn in H.
  eapply reach_step in H; [|eapply (tell 7); reflexivity]. cbn in H.
  eapply reach_step in H; [|apply (post 7 _ (Add (bs "b")))]. cbn in H.
  eapply reach_step in H; [|apply (spawn_reader 7); reflexivity]. cbn in H.
  eapply reach_step in H; [|eapply (read 7 _ (inr WsModel.ClientError)); reflexivity]. cbn in H.
  eapply reach_step in H; [|eapply (forward 7); reflexivity]. cbn in H.
  eapply reach_step in H; [|eapply (take 7); reflexivity]. cbn in H.
  eapply reach_step in H; [|apply (post 7 _ Clear)]. cbn in H.
  eapply reach_step in H; [|eapply (forward 7); reflexivity]. cbn in H.
  eapply reach_step in H; [|eapply (take 7); reflexivity]. cbn in H.
  eapply reach_step in H; [|eapply (take 7); reflexivity]. cbn in H.
  eexists. split; [exact H|]. split; reflexivity.
Qed.

(* ------------------------------------------------------------------ *)
(** ** C63. A session: if all re-renders in it are id-safe, a client that starts from the first page and
    applies the changesets sent holds the page of the component's current state. *)
Theorem C63_client_in_sync : forall max D I S E P (C : component D I S E P) data e0 p ms ctx c dom ls out,
  main_loop C data true ((e0, WhoAmI p) :: ms) = (Looping ctx c dom ls, out) ->
  c_render C c = Some (dom, ls) /\
  exists c0 d0 l0 cs doms, c_new C e0 data p = Some c0 /\ c_render C c0 = Some (d0, l0) /\ lives C p c0 ms cs c /\ pages C cs doms /\
    (linked (fun a b => proper max a /\ proper max b /\ safe a b) d0 doms ->
     exists oss, out = wire (create_from_scratch d0 None) :: map wire oss /\
       forall x, view x d0 -> exists y, apply_all max oss x = Some y /\ view y dom).
Proof.
  intros max D I S E P C data e0 p ms ctx c dom ls out H. apply main_loop_spec in H as (_ & R & c0 & d0 & l0 & cs & doms & outs & H1 & H2 & H3 & H4 & H5 & ->).
  split; [exact R|]. exists c0, d0, l0, cs, doms. repeat split; auto. intros Hl. destruct (chain_apply max _ _ _ H5 Hl) as (oss & -> & Ha).
  exists oss. split; [reflexivity|]. pose proof (lives_last _ _ _ _ _ _ H3) as Hc. rewrite Hc in R. now rewrite (pages_last _ _ _ H4 _ _ _ _ _ H2 R).
Qed.
Print Assumptions C63_client_in_sync.
(** The same for the browser of [ClientModel], from an empty document. *)
Theorem C63_browser_in_sync : forall reparse, InnerHtml.standard reparse ->
  forall D I S E P (C : component D I S E P) data e0 p ms ctx c dom ls out,
  main_loop C data true ((e0, WhoAmI p) :: ms) = (Looping ctx c dom ls, out) ->
  c_render C c = Some (dom, ls) /\
  exists c0 d0 l0 cs doms, c_new C e0 data p = Some c0 /\ c_render C c0 = Some (d0, l0) /\ lives C p c0 ms cs c /\ pages C cs doms /\
    (Forall (fun d => every (fun e => hm_wf (el_attrs e)) d /\ clean d) (d0 :: doms) -> NoDup (ids d0) -> linked (safe_with browser_pair) d0 doms ->
     exists y, browse reparse out [] = ([y], true) /\ shows y dom).
Proof.
  intros reparse Hre D I S E P C data e0 p ms ctx c dom ls out H. apply main_loop_spec in H as (_ & R & c0 & d0 & l0 & cs & doms & outs & H1 & H2 & H3 & H4 & H5 & ->).
  split; [exact R|]. exists c0, d0, l0, cs, doms. repeat split; auto. intros Hg Hnd Hl. inversion Hg as [|? ? G0 Gs]; subst.
  destruct (browser_first_paint reparse d0 G0 Hnd) as (os & Ho & y & V & Hy). injection Ho as <-. cbn [browse]. rewrite Hy.
  assert (linked (fun a b => bok a /\ bok b /\ safe_with browser_pair a b) d0 doms) as Hl'.
  { clear -G0 Gs Hl. revert d0 G0 Hl. induction Gs as [|d ds G Gs IH]; intros d0 G0 Hl; [exact Logic.I|]. destruct Hl as [L1 L2]. cbn [linked]. split; [|now apply IH]. split; [exact G0|]. split; [exact G|exact L1]. }
  destruct (chain_browse reparse _ Hre _ _ H5 Hl' y V) as (z & Hz & Vz). rewrite Hz. exists z. split; [reflexivity|].
  pose proof (lives_last _ _ _ _ _ _ H3) as Hc. rewrite Hc in R. now rewrite (pages_last _ _ _ H4 _ _ _ _ _ H2 R).
Qed.
Print Assumptions C63_browser_in_sync.
(** For a component whose updates are always of this kind: every session. *)
Theorem C63_component_in_sync : forall reparse max, InnerHtml.standard reparse ->
  forall D I S E P (C : component D I S E P) data p (Inv : S -> Prop),
  (forall e c d l, c_new C e data p = Some c -> c_render C c = Some (d, l) -> Inv c /\ NoDup (ids d)) ->
  (forall c d l, Inv c -> c_render C c = Some (d, l) -> proper max d /\ clean d) ->
  (forall e c i c' d l d' l', Inv c -> c_update C e c i p = Some c' -> c_render C c = Some (d, l) -> c_render C c' = Some (d', l') ->
     Inv c' /\ safe_with browser_pair d d') ->
  forall e0 ms ctx c dom ls out, main_loop C data true ((e0, WhoAmI p) :: ms) = (Looping ctx c dom ls, out) ->
  c_render C c = Some (dom, ls) /\
  (exists d0 oss, out = wire (create_from_scratch d0 None) :: map wire oss /\
     forall x, view x d0 -> exists y, apply_all max oss x = Some y /\ view y dom) /\
  exists y, browse reparse out [] = ([y], true) /\ shows y dom.
Proof.
  intros reparse max Hre D I S E P C data p Inv Hnew Hok Hstep e0 ms ctx c dom ls out H.
  assert (forall c0 d0 l0 cs doms, c_new C e0 data p = Some c0 -> c_render C c0 = Some (d0, l0) -> lives C p c0 ms cs c -> pages C cs doms ->
    linked (fun a b => (proper max a /\ clean a) /\ (proper max b /\ clean b) /\ safe_with browser_pair a b) d0 doms) as Hlink.
  { intros c0 d0 l0 cs doms E0 R0 L F. destruct (Hnew _ _ _ _ E0 R0) as [I0 _].
    refine (proj2 (lives_chain C p Inv _ _ _ _ _ _ L d0 l0 doms I0 R0 F)).
    intros e c1 i c2 d1 l1 d2 l2 I1 U1 R1 R2. destruct (Hstep _ _ _ _ _ _ _ _ I1 U1 R1 R2) as [I2 Hs]. split; [exact I2|]. split; [now apply (Hok c1 d1 l1)|].
    split; [now apply (Hok c2 d2 l2)|exact Hs]. }
  assert (forall Q R : element -> element -> Prop, (forall a b, Q a b -> R a b) -> forall ds d, linked Q d ds -> linked R d ds) as Hmono.
  { intros Q R HQR. induction ds as [|d1 ds IH]; intros d; [easy|]. intros [A B]. split; auto. }
  destruct (C63_client_in_sync max _ _ _ _ _ C data e0 p ms ctx c dom ls out H) as (R & c0 & d0 & l0 & cs & doms & H1 & H2 & H3 & H4 & H5).
  split; [exact R|]. split.
  - exists d0. apply H5. apply (Hmono _ _) with (2 := Hlink _ _ _ _ _ H1 H2 H3 H4). intros a b ((Pa & _) & (Pb & _) & Hs). split; [exact Pa|]. split; [exact Pb|]. now apply safe_with_safe in Hs.
  - clear H5. destruct (C63_browser_in_sync reparse Hre _ _ _ _ _ C data e0 p ms ctx c dom ls out H) as (_ & c0' & d0' & l0' & cs' & doms' & H1' & H2' & H3' & H4' & H5').
    apply H5'.
    + destruct (Hnew _ _ _ _ H1' H2') as [I0 _]. constructor.
      * destruct (Hok _ _ _ I0 H2') as [A B]. split; [now apply (proper_wf max)|exact B].
      * pose proof (Hlink _ _ _ _ _ H1' H2' H3' H4') as L. clear -L. revert d0' L. induction doms' as [|d ds IH]; intros d0; [constructor|].
        intros [(_ & (A & B) & _) L]. constructor; [|now apply (IH d)]. split; [now apply (proper_wf max)|exact B].
    + now apply (Hnew _ _ _ _ H1' H2').
    + apply (Hmono _ _) with (2 := Hlink _ _ _ _ _ H1' H2' H3' H4'). now intros a b (_ & _ & Hs).
Qed.
Print Assumptions C63_component_in_sync.
(** The to-do list, as long as it has fewer than 100 items, meets the hypotheses. *)
Definition short_todo : component unit todo_input (list str) unit nat := {|
  c_new := c_new todo_list;
  c_update := fun e l i p => if Nat.ltb (length l) 90 then c_update todo_list e l i p else Some [];
  c_render := c_render todo_list |}.
Example C63_example : let Inv := fun l : list str => length l <= 90 in
  (forall e c d l, c_new short_todo e tt 7 = Some c -> c_render short_todo c = Some (d, l) -> Inv c /\ NoDup (ids d)) /\
  (forall c d l, Inv c -> c_render short_todo c = Some (d, l) -> proper 100 d /\ clean d) /\
  (forall e c i c' d l d' l', Inv c -> c_update short_todo e c i 7 = Some c' -> c_render short_todo c = Some (d, l) -> c_render short_todo c' = Some (d', l') ->
     Inv c' /\ safe_with browser_pair d d') /\
  exists dom ls out y, main_loop short_todo tt true ((tt, WhoAmI 7) :: session) = (Looping 7 [bs "milk"; bs "1+1"] dom ls, out) /\
    browse InnerHtml.plain_browser out [] = ([y], true) /\ y = paint (todo_page [bs "milk"; bs "1+1"]).
Proof.
  cbv zeta. split; [|split; [|split]].
  - intros e c d l [= <-] [= <- <-]. split; [cbn; lia|]. apply (numbered_range _ _ _ (todo_numbered [])).
  - intros c d l Hc [= <- <-]. split; [|apply todo_clean]. apply todo_proper. lia.
  - intros e c i c' d l d' l' Hc Hu [= <- <-] [= <- <-]. split; [|apply todo_safe]. cbn [c_update short_todo] in Hu. destruct (Nat.ltb_spec (length c) 90).
    + destruct i; cbn in Hu; [injection Hu as <-; rewrite ?app_length; cbn; lia..|discriminate].
    + injection Hu as <-. cbn. lia.
  - eexists _, _, _, _. split; [vm_compute; reflexivity|]. split; vm_compute; reflexivity.
Qed.

(* ------------------------------------------------------------------ *)
(** ** C72. Events. The browser shows the page, and every listener on the page has a handler for its event in
    the table: then each listener in the browser, when its event happens, sends a text that makes the component
    process ask for exactly the input its handler makes of the element's value. *)
Theorem C72_events_arrive : forall I P (ls : hmap (handler I)) doc dom, shows doc dom -> wired ls dom ->
  forall ev name, listening doc (ev, name) ->
  exists h, get name ls = Some h /\ event_of h = ev /\
  forall value, exists text, js_event ev name value = Some text /\ asks ls (@Ws I P (inl (WsModel.Text text))) (input_for h value).
Proof.
  intros I P ls doc dom Hs Hw ev name Hl. destruct (listening_shown _ _ Hl _ Hs _ Hw) as (e & He & l & Hin & [= -> ->]).
  rewrite Forall_forall in He. destruct (He l Hin) as (h & Hg & Hev). exists h. split; [exact Hg|]. split; [exact Hev|]. intros value. rewrite <- Hev.
  destruct h as [c|c|f]; cbn [event_of js_event input_for].
  - eexists. split; [reflexivity|]. eapply asks_click; [apply says_iff, client_message_listener|exact Hg].
  - eexists. split; [reflexivity|]. eapply asks_submit; [apply says_iff, client_message_listener|exact Hg].
  - eexists. split; [reflexivity|]. eapply asks_input; [apply says_iff, client_message_value|exact Hg].
Qed.
Print Assumptions C72_events_arrive.
(** In a session: the browser shows the page of the component's current state, every listener on it has a handler;
    then the event makes the process update the component with the input of the handler, and send the change. *)
Theorem C72_events_handled : forall D I S E P (C : component D I S E P) data e0 p ms ctx c kept_dom kept_ls out doc dom ls ev name,
  main_loop C data true ((e0, WhoAmI p) :: ms) = (Looping ctx c kept_dom kept_ls, out) ->
  c_render C c = Some (dom, ls) -> shows doc dom -> wired ls dom -> listening doc (ev, name) ->
  exists h, get name ls = Some h /\ event_of h = ev /\
  forall value, exists text, js_event ev name value = Some text /\
  forall e c' dom' ls' os, c_update C e c (input_for h value) p = Some c' -> c_render C c' = Some (dom', ls') -> diff dom (Some dom') = Some os ->
  main_loop C data true (((e0, WhoAmI p) :: ms) ++ [(e, Ws (inl (WsModel.Text text)))]) = (Looping p c' dom' ls', out ++ [wire os]).
Proof.
  intros D I S E P C data e0 p ms ctx c kept_dom kept_ls out doc dom ls ev name H R Hs Hw Hl.
  pose proof H as H'. apply main_loop_spec in H' as (-> & R' & _). rewrite R in R'. injection R' as <- <-.
  destruct (C72_events_arrive I P ls doc dom Hs Hw ev name Hl) as (h & Hg & Hev & Ht). exists h. split; [exact Hg|]. split; [exact Hev|].
  intros value. destruct (Ht value) as (text & Hj & Ha). exists text. split; [exact Hj|].
  intros e c' dom' ls' os Hu Hr Hd. unfold main_loop in *. rewrite run_app, H. cbn [run receive fst snd].
  rewrite (iteration_asks _ _ _ _ _ _ _ _ Ha). unfold update_and_diff, perform_diff. rewrite Hu, Hr, Hd. reflexivity.
Qed.
Print Assumptions C72_events_handled.
(** Other events are attached in the browser, but send nothing: the handler is never called. *)
Theorem C72_other_events_refuted : exists I (ls : hmap (handler I)) doc dom ev name h,
  shows doc dom /\ listening doc (ev, name) /\ el_listeners dom = [Listener name ev] /\ get name ls = Some h /\ forall value, js_event ev name value = None.
Proof.
  exists str, [(bs "pick", OnInput (fun v => v))], (paint (Element 0 (bs "select") [] [Listener (bs "pick") (bs "change")] [] None None)),
    (Element 0 (bs "select") [] [Listener (bs "pick") (bs "change")] [] None None), (bs "change"), (bs "pick"), (OnInput (fun v => v)).
  split; [apply paint_shows|]. split; [vm_compute; constructor; now left|]. split; [reflexivity|]. split; [reflexivity|]. reflexivity.
Qed.
Print Assumptions C72_other_events_refuted.
(** Exactly which events reach a handler that is in the table, whatever the event the listener was attached for: input
    events reach every handler, clicks and submissions the handlers that need no value, and no other event any. *)
Theorem C72_exactly : forall I P (ls : hmap (handler I)) name h ev value, get name ls = Some h ->
  ((exists text i, js_event ev name value = Some text /\ asks ls (@Ws I P (inl (WsModel.Text text))) i) <->
   ev = bs "input" \/ ((ev = bs "click" \/ ev = bs "submit") /\ forall call, h <> OnInput call)) /\
  forall text i, js_event ev name value = Some text -> asks ls (@Ws I P (inl (WsModel.Text text))) i -> i = input_for h value.
Proof.
  intros I P ls name h ev value G.
  assert (forall text n p i, client_message text = Some (n, p) -> n = name -> asks ls (@Ws I P (inl (WsModel.Text text))) i ->
    match h with OnClick c => i = c | OnSubmit c => i = c | OnInput f => exists v, p = Some v /\ i = f v end) as Back.
  { intros text n p i Hc -> Ha. inversion Ha as [|? n' p' call Hs Hg|? n' p' call Hs Hg|? n' v call Hs Hg]; subst; apply says_iff in Hs; rewrite Hc in Hs; injection Hs as En Ep; rewrite <- En, G in Hg; injection Hg as Eh; rewrite Eh; eauto. }
  assert (forall text p, client_message text = Some (name, p) -> (forall call, h = OnInput call -> exists v, p = Some v) -> exists i, asks ls (@Ws I P (inl (WsModel.Text text))) i) as Fwd.
  { intros text p Hc Hv. destruct h as [c|c|f].
    - exists c. eapply asks_click; [apply says_iff; exact Hc|exact G].
    - exists c. eapply asks_submit; [apply says_iff; exact Hc|exact G].
    - destruct (Hv f eq_refl) as (v & ->). exists (f v). eapply asks_input; [apply says_iff; exact Hc|exact G]. }
  unfold js_event. destruct (str_eqb ev (bs "click")) eqn:E1; [apply str_eqb_eq in E1; subst ev|destruct (str_eqb ev (bs "submit")) eqn:E2; [apply str_eqb_eq in E2; subst ev|
    destruct (str_eqb ev (bs "input")) eqn:E3; [apply str_eqb_eq in E3; subst ev|]]].
  - split; [split|].
    + intros (text & i & [= <-] & Ha). right. split; [now left|]. intros call ->. apply (Back _ _ _ _ (client_message_listener name) eq_refl) in Ha. now destruct Ha as (v & [=] & _).
    + intros [[=]|(_ & Hn)]. destruct (Fwd _ _ (client_message_listener name)) as (i & Ha); [intros call E; now destruct (Hn call)|]. eauto.
    + intros text i [= <-] Ha. apply (Back _ _ _ _ (client_message_listener name) eq_refl) in Ha. destruct h; cbn [input_for]; [exact Ha|exact Ha|]. now destruct Ha as (v & [=] & _).
  - split; [split|].
    + intros (text & i & [= <-] & Ha). right. split; [now right|]. intros call ->. apply (Back _ _ _ _ (client_message_listener name) eq_refl) in Ha. now destruct Ha as (v & [=] & _).
    + intros [[=]|(_ & Hn)]. destruct (Fwd _ _ (client_message_listener name)) as (i & Ha); [intros call E; now destruct (Hn call)|]. eauto.
    + intros text i [= <-] Ha. apply (Back _ _ _ _ (client_message_listener name) eq_refl) in Ha. destruct h; cbn [input_for]; [exact Ha|exact Ha|]. now destruct Ha as (v & [=] & _).
  - split; [split|].
    + auto.
    + intros _. destruct (Fwd _ _ (client_message_value name value)) as (i & Ha); [eauto|]. eauto.
    + intros text i [= <-] Ha. apply (Back _ _ _ _ (client_message_value name value) eq_refl) in Ha. destruct h; cbn [input_for]; [exact Ha|exact Ha|]. destruct Ha as (v & [= <-] & ->). reflexivity.
  - split; [split|].
    + intros (text & i & [=] & _).
    + intros [->|([->| ->] & _)]; discriminate.
    + intros text i [=].
Qed.
Print Assumptions C72_exactly.
Example C72_exactly_example : get (bs "add") [(bs "add", OnInput Add); (bs "clear", OnClick Clear)] = Some (OnInput Add) /\
  js_event (bs "click") (bs "add") (bs "x") = Some (bs "{""listener"":""add""}") /\
  js_event (bs "input") (bs "clear") (bs "x") = Some (bs "{""listener"":""clear"",""payload"":{""value"":""x""}}").
Proof. repeat split. Qed.
Example C72_example : forall l, wired [(bs "add", OnInput Add); (bs "clear", OnClick Clear)] (todo_page l) /\
  listening (paint (todo_page l)) (bs "input", bs "add") /\
  js_event (bs "input") (bs "add") (bs "a+b") = Some (bs "{""listener"":""add"",""payload"":{""value"":""a+b""}}").
Proof.
  intros l. split; [|split; [|vm_compute; reflexivity]].
  - constructor; [constructor|]. cbn [todo_page el_children]. constructor; [|constructor].
    + constructor; [|constructor]. constructor; [|constructor]. exists (OnInput Add). split; reflexivity.
    + constructor; [|constructor]. constructor; [|constructor]. exists (OnClick Clear). split; reflexivity.
    + generalize 3%N. induction l; intros i; constructor; auto. constructor; constructor.
  - cbn [todo_page paint map text_of text_nodes app]. eapply listening_below; [left; reflexivity|]. apply listening_here. now left.
Qed.

(* ------------------------------------------------------------------ *)
(** ** C73. When a client goes away without a close frame, reading gives an error over and over and the
    component process goes on for ever. *)
Theorem C73_vanished_client_refuted : forall D I S E P (C : component D I S E P) m data ms ctx c dom ls out,
  main_loop C data true ms = (Looping ctx c dom ls, out) ->
  forall n e, main_loop C data true (ms ++ map (fun r => (e, Ws r)) (reads m n (WsModel.ws_new [] None))) = (Looping ctx c dom ls, out) /\
    length (reads m n (WsModel.ws_new [] None)) = n.
Proof.
  intros D I S E P C m data ms ctx c dom ls out H n e. unfold WsModel.ws_new. rewrite reads_eof. rewrite repeat_length. split; [|reflexivity].
  rewrite <- (app_nil_r (map _ _)). rewrite (C61_noise_ignored _ _ _ _ _ _ _ _ _ _ _ _ _ _ _ _ H).
  - now rewrite app_nil_r.
  - apply Forall_forall. intros x Hx. apply in_map_iff in Hx as (r & <- & Hr). apply repeat_spec in Hr as ->. exists (inr WsModel.ClientError).
    split; [reflexivity|]. split; [discriminate|]. discriminate.
Qed.
Print Assumptions C73_vanished_client_refuted.
(** A client that says goodbye: whatever it sent before, and whatever inputs come in between, after its close
    frame has been read the process has ended and its component is dropped; the reader, however, goes on
    reporting the close for ever. *)
Theorem C73_close_frame_partial : forall D I S E P (C : component D I S E P) m data p Inv Allowed e0 (xs : list (N * list piece)) cl rest n ms,
  machine_ok m -> Forall (fun x => delivered m (fst x) (snd x)) xs -> piece_ok m cl -> rf_op (pc_frame cl) = 8%N ->
  sound C data p Inv Allowed -> Forall Allowed ms -> Forall (fun em => ~ identity (snd em)) ms ->
  ws_of (map snd ms) = reads m (length xs + (1 + n)) (WsModel.ws_new (flat_map (fun x => pieces_stream (snd x)) xs ++ pieces_stream [cl] ++ rest) None) ->
  ws_of (map snd ms) = map (fun x => inl (msg_of_pieces x)) xs ++ repeat (inr WsModel.ConnectionClosed) (1 + n) /\
  exists c out, main_loop C data true ((e0, WhoAmI p) :: ms) = (Returned c, out) /\ Inv c.
Proof.
  intros D I S E P C m data p Inv Allowed e0 xs cl rest n ms Hm Hx Hcl Hop Hs HA HI Hw. unfold WsModel.ws_new in Hw. change (1 + n) with (Datatypes.S n) in *. rewrite (reads_close _ _ _ _ Hm Hx Hcl Hop) in Hw.
  split; [exact Hw|]. apply (sound_closed C data p Inv Allowed Hs e0 ms HA HI). 
  assert (In (inr WsModel.ConnectionClosed) (ws_of (map snd ms))) as Hin by (rewrite Hw; apply in_or_app; right; now left).
  unfold ws_of in Hin. apply in_flat_map in Hin as (x & Hx1 & Hx2). apply in_map_iff in Hx1 as ([e y] & Hy & Hi). exists e. cbn [snd] in Hy. subst y.
  destruct x as [r|i|q]; cbn in Hx2; try contradiction. destruct Hx2 as [-> |[]]. exact Hi.
Qed.
Print Assumptions C73_close_frame_partial.
(** A client that is gone before the first page could be sent: the process ends (by the panic of the send) with its first
    message, whatever else it is sent; no input is handled. *)
Theorem C73_gone_before_the_first_page_partial : forall D I S E P (C : component D I S E P) data ms,
  (ms <> [] -> fst (main_loop C data false ms) = Panicked) /\ length (snd (main_loop C data false ms)) <= 1 /\
  (forall ms', ms <> [] -> snd (main_loop C data false (ms ++ ms')) = snd (main_loop C data false ms)).
Proof.
  intros D I S E P C data ms.
  assert (forall l, run C data false l Panicked = (Panicked, [])) as Hp. { induction l as [|x l IH]; [reflexivity|]. cbn [run receive]. now rewrite IH. }
  assert (forall x l, exists o, main_loop C data false (x :: l) = (Panicked, o) /\ length o <= 1 /\ forall l', main_loop C data false (x :: l') = (Panicked, o)) as H.
  { intros [e m] l. exists (snd (start C e data false m)). assert (fst (start C e data false m) = Panicked /\ length (snd (start C e data false m)) <= 1) as [F L].
    { unfold start. destruct m; try (split; [reflexivity|cbn; lia]). destruct (c_new C e data _); [|split; [reflexivity|cbn; lia]]. destruct (c_render C _) as [[dom ls]|]; [|split; [reflexivity|cbn; lia]].
      destruct (diff dom None); split; try reflexivity; cbn; lia. }
    assert (forall l', main_loop C data false ((e, m) :: l') = (Panicked, snd (start C e data false m))) as R.
    { intros l'. unfold main_loop. cbn [run receive fst snd]. destruct (start C e data false m) as [q o]. cbn [fst] in F. subst q. rewrite Hp. now rewrite app_nil_r. }
    split; [apply R|]. split; [exact L|exact R]. }
  destruct ms as [|x l].
  - split; [congruence|]. split; [cbn; lia|]. congruence.
  - destruct (H x l) as (o & H1 & H2 & H3). rewrite H1. split; [reflexivity|]. split; [exact H2|]. intros l' _. cbn [app]. now rewrite H3.
Qed.
Print Assumptions C73_gone_before_the_first_page_partial.

(* ------------------------------------------------------------------ *)
(** ** C74. The whole way: a client sends text messages [xs] (any fragmentation and masks), other processes send
    inputs in between. The component sees exactly those texts, in order; what the server writes to the socket
    decodes, by RFC 6455, into unfragmented text frames; and a browser that handles their payloads from an empty
    document shows the page of the component's current state. *)
Theorem C74_end_to_end : forall m reparse max, machine_ok m -> InnerHtml.standard reparse ->
  forall D I S E P (C : component D I S E P) data p (Inv : S -> Prop),
  (forall e c d l, c_new C e data p = Some c -> c_render C c = Some (d, l) -> Inv c /\ NoDup (ids d)) ->
  (forall c d l, Inv c -> c_render C c = Some (d, l) -> proper max d /\ clean d) ->
  (forall e c i c' d l d' l', Inv c -> c_update C e c i p = Some c' -> c_render C c = Some (d, l) -> c_render C c' = Some (d', l') ->
     Inv c' /\ safe_with browser_pair d d') ->
  forall (xs : list (list piece)) rest e0 ms ctx c dom ls out, Forall (delivered m 1) xs ->
  ws_of (map snd ms) = reads m (length xs) (WsModel.ws_new (flat_map pieces_stream xs ++ rest) None) ->
  main_loop C data true ((e0, WhoAmI p) :: ms) = (Looping ctx c dom ls, out) -> Forall (fun t => (N.of_nat (length t) < 2 ^ 63)%N) out ->
  ws_of (map snd ms) = map (fun ps => inl (WsModel.Text (payload_of (map pc_frame ps)))) xs /\
  exists fs y, frames_in (sent_bytes out) = Some fs /\
    Forall (fun f => rf_fin f = true /\ rf_rsv f = 0%N /\ rf_op f = 1%N /\ rf_key f = None) fs /\
    browse reparse (map rf_payload fs) [] = ([y], true) /\ shows y dom /\ c_render C c = Some (dom, ls).
Proof.
  intros m reparse max Hm Hre D I S E P C data p Inv H1 H2 H3 xs rest e0 ms ctx c dom ls out Hx Hw Hrun Hsz. split.
  - rewrite Hw. unfold WsModel.ws_new. pose proof (reads_delivered m (map (fun ps => (1%N, ps)) xs) rest Hm) as R.
    rewrite map_length in R. rewrite map_map in R. rewrite <- (R ltac:(apply Forall_map; exact Hx) [] : _ = map (fun ps => inl (WsModel.Text (payload_of (map pc_frame ps)))) xs). do 3 f_equal.
    clear. induction xs as [|x xs IH]; [reflexivity|]. cbn. now rewrite IH.
  - destruct (C63_component_in_sync reparse max Hre _ _ _ _ _ C data p Inv H1 H2 H3 e0 ms ctx c dom ls out Hrun) as (Rc & _ & y & By & Sy).
    exists (map text_frame out), y. split; [now apply sent_frames|]. split; [apply Forall_forall; intros f Hf; apply in_map_iff in Hf as (t & <- & _); repeat split|].
    rewrite map_map. cbn [text_frame rf_payload]. rewrite map_id. auto.
Qed.
Print Assumptions C74_end_to_end.
Definition typed (text : str) : list piece := [whole (client true 0 1 text)].
Definition split_typed (t1 t2 : str) : list piece := [whole (client false 0 1 t1); whole (client true 0 0 t2)].
Definition typing : list (list piece) :=
  [typed (bs "{""listener"":""add"",""payload"":{""value"":""milk""}}"); split_typed (bs "{""listener"":") (bs """clear""}");
   typed (bs "{""listener"":""add"",""payload"":{""value"":""eggs""}}")].
Example C74_example : Forall (delivered m32 1) typing /\ exists ms dom ls out,
  ws_of (map snd ms) = reads m32 3 (WsModel.ws_new (flat_map pieces_stream typing) None) /\ inputs_of (map snd ms) = [Add (bs "a program's")] /\
  main_loop short_todo tt true ((tt, WhoAmI 7) :: ms) = (Looping 7 [bs "a program's"; bs "eggs"] dom ls, out) /\ Forall (fun t => (N.of_nat (length t) < 2 ^ 63)%N) out.
Proof.
  split.
  - assert (forall t, length t < 126 -> Utf8.valid_utf8 t = true -> delivered m32 1 (typed t)) as H1.
    { intros t Hl Hu. unfold delivered, typed, deliverable, payload_fits, payload_of. cbn [map pc_frame whole client rf_payload concat]. rewrite app_nil_r.
      split; [constructor; [apply whole_ok; [lia|lia|exact Hl]|constructor]|]. split; [left; now eexists|]. split; [now auto|]. split; [cbn; lia|].
      intros _. now apply Utf8.valid_utf8_iff. }
    constructor; [apply H1; [cbn; lia|vm_compute; reflexivity]|]. constructor; [|constructor; [apply H1; [cbn; lia|vm_compute; reflexivity]|constructor]].
    split; [constructor; [apply whole_ok; cbn; lia|constructor; [apply whole_ok; cbn; lia|constructor]]|]. split.
    + right. eexists _, [], _. repeat split; constructor.
    + split; [unfold deliverable; auto|]. split; [unfold payload_fits; cbn; lia|]. intros _. apply Utf8.valid_utf8_iff. vm_compute. reflexivity.
  - exists [text_msg (bs "{""listener"":""add"",""payload"":{""value"":""milk""}}"); text_msg (bs "{""listener"":""clear""}");
            (tt, Input (Add (bs "a program's"))); text_msg (bs "{""listener"":""add"",""payload"":{""value"":""eggs""}}")].
    eexists _, _, _. split; [vm_compute; reflexivity|]. split; [reflexivity|]. split; [vm_compute; reflexivity|]. repeat constructor.
Qed.
Example C73_example : exists p, piece_ok m32 p /\ rf_op (pc_frame p) = 8%N /\
  reads m32 3 (WsModel.ws_new (flat_map pieces_stream (firstn 1 typing) ++ pieces_stream [p]) None) =
  [inl (WsModel.Text (bs "{""listener"":""add"",""payload"":{""value"":""milk""}}")); inr WsModel.ConnectionClosed; inr WsModel.ConnectionClosed].
Proof.
  exists (whole (client true 0 8 [n2b 3; n2b 232])). split; [apply whole_ok; cbn; lia|]. split; [reflexivity|]. vm_compute. reflexivity.
Qed.
