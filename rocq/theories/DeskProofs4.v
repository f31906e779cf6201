(** A chat user's session: the invariant holds. *)
From Verif Require Import Base HMap Num Json DomModel DomSpec DomProofs DomProofs2 DomProofs3 DomProofs4 HtmlModel ClientModel ClientSpec ClientProofs ClientProofs2 BrowserProofs
  ComponentModel JsonSpec JsonProofs ComponentSpec ComponentProofs ComponentProofs2 ChatModel ChatSpec ChatProofs2 PropBrowser UserModel UserProofs UserSpec UserProofs2 UserProofs3 DeskSpec DeskProofs DeskProofs2 DeskProofs3.
From Verif Require WsModel InnerHtml.
From Coq Require Import Lia.

Section Inv.
Context (reparse : str -> str -> list node -> list node) (Hre : InnerHtml.standard reparse) (p : N).
Notation alive := (alive p).
Definition at_server (v : view) (c : chat) (rs : list creq) : Prop :=
  messages_of rs = vs v /\ names_of rs = firstn 1 (vr v) /\
  match c with Uninitialized n => n = vn v /\ vr v = [] | Initialized _ _ _ comp => comp = vc v /\ vr v <> [] end.
Definition past (us : list utext) (c : chat) : Prop :=
  exists l1 l2, us = l1 ++ l2 /\ match c with Uninitialized n => n = vn (view_of l1) | Initialized _ _ _ comp => comp = vc (view_of l1) end.
Definition at_browser (us : list utext) (n : vnode) (c : chat) : Prop :=
  displays (erase n) (chat_element c) /\
  match c with
  | Uninitialized _ => exists m t, on_uninit n m t /\ get attr_id m = Some (bs "2") /\ field_of m t = vn (view_of us) /\ Forall early us /\
      incl (ids_typed [n]) [Some (bs "2")] /\ (t = None -> Forall not_name us)
  | Initialized _ _ _ _ => exists m t, on_init n m t /\ field_of m t = vc (view_of us) /\ (t = None -> Forall not_message us)
  end.
Definition browsing (us : list utext) (cs : list chat) (r : nat) (d : list vnode) : Prop :=
  match r with
  | 0 => d = [] /\ us = []
  | S j => exists n c, d = [n] /\ nth_error (chat_new :: cs) j = Some c /\ at_browser us n c
  end.
Definition sing (l : list str) : list (list str) := map (fun v => [v]) l.
Definition inv (k : desk) (us : list utext) (cs : list chat) (out : list str) (rs : list creq) : Prop :=
  k_sent k = map u_text us /\ k_taken k <= length us /\ alive (k_ms k) cs out /\ requested p (k_ms k) rs /\
  at_server (view_of (firstn (k_taken k) us)) (last cs chat_new) rs /\
  (match last cs chat_new with Uninitialized _ => Forall early us | _ => True end) /\
  Forall (past us) (chat_new :: cs) /\
  browsing us cs (k_read k) (k_doc k) /\
  k_sends k = sing (vs (view_of us)) /\ k_joins k = sing (vr (view_of us)).

Lemma past_more us more c : past us c -> past (us ++ more) c.
Proof. intros (l1 & l2 & -> & H). exists l1, (l2 ++ more). rewrite app_assoc. auto. Qed.
(** Once a page of the main kind is shown, the process is past the first page. *)
Lemma follows_init c c' u id ms comp : follows c c' -> c = Initialized u id ms comp -> exists u' ms' comp', c' = Initialized u' id ms' comp'.
Proof. intros F ->. inversion F; subst. eauto. Qed.
Lemma init_stays ms cs out j : alive ms cs out -> forall k u id l comp, nth_error (chat_new :: cs) j = Some (Initialized u id l comp) -> j + k <= length cs ->
  exists u' l' comp', nth_error (chat_new :: cs) (j + k) = Some (Initialized u' id l' comp').
Proof.
  intros (_ & _ & _ & H) k. induction k as [|k IH]; intros u id l comp E L; [rewrite Nat.add_0_r; eauto|].
  destruct (IH u id l comp E ltac:(lia)) as (u' & l' & comp' & E').
  assert (exists c2, nth_error cs (j + k) = Some c2) as (c2 & E2). { destruct (nth_error cs (j + k)) eqn:X; [eauto|]. apply nth_error_None in X. lia. }
  destruct (H _ _ _ E' E2) as (F & _). destruct (follows_init _ _ _ _ _ _ F eq_refl) as (u2 & l2 & co2 & ->). exists u2, l2, co2. rewrite Nat.add_succ_r. exact E2.
Qed.
Lemma init_last ms cs out j u id l comp : alive ms cs out -> nth_error (chat_new :: cs) j = Some (Initialized u id l comp) -> exists u' l' comp', last cs chat_new = Initialized u' id l' comp'.
Proof.
  intros A E. assert (j < length (chat_new :: cs)) as L by (apply nth_error_Some; congruence). cbn [length] in L.
  destruct (init_stays ms cs out j A (length cs - j) u id l comp E ltac:(lia)) as (u' & l' & c' & E'). replace (j + (length cs - j)) with (length cs) in E' by lia. rewrite nth_last in E'. injection E' as ->. eauto.
Qed.

(** The user sends a text. *)
Lemma inv_sent k us cs out rs u d : inv k us cs out rs ->
  (match last cs chat_new with Uninitialized _ => early u | _ => True end) -> browsing (us ++ [u]) cs (k_read k) d ->
  inv (Desk (k_ms k) (k_read k) d (k_sent k ++ [u_text u]) (k_taken k)
    (k_sends k ++ match u with USend => [[vc (view_of us)]] | _ => [] end) (k_joins k ++ match u with UJoin => [[vn (view_of us)]] | _ => [] end)) (us ++ [u]) cs out rs.
Proof.
  intros (I1 & I2 & I3 & I4 & I5 & I6 & I7 & I8 & I9 & I10) He Hb. unfold inv. cbn [k_ms k_read k_doc k_sent k_taken k_sends k_joins]. rewrite I1, map_app, app_length, view_snoc.
  split; [reflexivity|]. split; [lia|]. split; [exact I3|]. split; [exact I4|]. split; [rewrite firstn_app, (proj2 (Nat.sub_0_le _ _) I2); cbn [firstn]; now rewrite app_nil_r|].
  split; [|split; [|split; [exact Hb|]]].
  - destruct (last cs chat_new); [|exact Logic.I]. apply Forall_app. split; [exact I6|]. constructor; [exact He|constructor].
  - eapply Forall_impl; [|exact I7]. intros c. apply past_more.
  - rewrite I9, I10. unfold sing. destruct u; cbn [vstep vs vr]; rewrite ?map_app, ?app_nil_r; split; reflexivity.
Qed.
Lemma firstn_snoc {A} (l : list A) t x : nth_error l t = Some x -> firstn (S t) l = firstn t l ++ [x].
Proof. revert t. induction l as [|y l IH]; intros [|t] H; try discriminate; cbn [nth_error firstn app] in *; [injection H as ->; reflexivity|]. now rewrite (IH t H). Qed.

Theorem sits_inv k : sits reparse p k -> exists us cs out rs, inv k us cs out rs.
Proof.
  induction 1 as [|ms r d s t cl cj q text d' s' _ IH Hf Ha|ms r d s t cl cj q tag a ty l kids s' d' _ IH Hq Ha|ms r d s t cl cj proc out0 text d' ok _ IH Hp Hn Hm|ms r d s t cl cj text e _ IH Hn Ho|ms r d s t cl cj e m _ IH].
  - (* the start *)
    exists [], [], [wire first_ops], []. unfold inv. cbn [k_ms k_read k_doc k_sent k_taken k_sends k_joins]. split; [reflexivity|]. split; [cbn; lia|]. split; [apply alive_start|]. split; [constructor|].
    split; [repeat split; reflexivity|]. split; [constructor|]. split; [constructor; [exists [], []; split; reflexivity|constructor]|]. repeat split; reflexivity.
  - (* typing *)
    destruct IH as (us & cs & out & rs & I). pose proof I as (I1 & I2 & I3 & I4 & I5 & I6 & I7 & I8 & I9 & I10). cbn [k_ms k_read k_doc k_sent k_taken k_sends k_joins] in *.
    destruct r as [|j]; [destruct I8 as [-> ->]; destruct Hf as (a & ty & l & kids & Hf & _); destruct q as [|? [|? ?]]; try discriminate; destruct n; discriminate|].
    destruct I8 as (n & c & -> & Ec & D & B). destruct c as [un|un id ml comp].
    + destruct B as (m & ty & O & Id & Fv & E & Ty & Tn). destruct (uninit_type n m ty q text O Id Hf) as (n' & Ea & O' & -> & Hi). rewrite Ea in Ha. injection Ha as <- <-.
      exists (us ++ [UName text]), cs, out, rs.
      pose proof (inv_sent (Desk ms (S j) [n] s t cl cj) us cs out rs (UName text) [n'] I) as R. cbn [k_ms k_read k_doc k_sent k_taken k_sends k_joins] in R. rewrite !app_nil_r in R.
      apply R; [destruct (last cs chat_new); exact Logic.I|]. cbn [browsing]. exists n', (Uninitialized un). split; [reflexivity|]. split; [exact Ec|]. split.
      * assert (map erase [n'] = map erase [n]) as X. { cbn [act] in Ea. injection Ea as Ea _. rewrite <- Ea. apply (erase_type text [0;0;0] [n]). } injection X as ->. exact D.
      * exists m, (Some text). split; [exact O'|]. split; [exact Id|]. rewrite view_snoc. split; [reflexivity|]. split; [apply Forall_app; split; [exact E|repeat constructor]|]. split; [|discriminate].
        eapply incl_tran; [exact Hi|]. intros z [<-|Hz]; [now left|now apply Ty].
    + destruct B as (m & ty & O & Fv & Tn). destruct (init_type n m ty q text O Hf) as (n' & Ea & O' & ->). rewrite Ea in Ha. injection Ha as <- <-.
      destruct (init_last ms cs out j un id ml comp I3 Ec) as (u2 & l2 & c2 & Hlast).
      exists (us ++ [UMessage text]), cs, out, rs.
      pose proof (inv_sent (Desk ms (S j) [n] s t cl cj) us cs out rs (UMessage text) [n'] I) as R. cbn [k_ms k_read k_doc k_sent k_taken k_sends k_joins] in R. rewrite !app_nil_r in R.
      apply R; [rewrite Hlast; exact Logic.I|]. cbn [browsing]. exists n', (Initialized un id ml comp). split; [reflexivity|]. split; [exact Ec|]. split.
      * assert (map erase [n'] = map erase [n]) as X. { cbn [act] in Ea. injection Ea as Ea _. rewrite <- Ea. apply (erase_type text [0;0;1;0] [n]). } injection X as ->. exact D.
      * exists m, (Some text). split; [exact O'|]. rewrite view_snoc. split; [reflexivity|discriminate].
  - (* clicking *)
    destruct IH as (us & cs & out & rs & I). pose proof I as (I1 & I2 & I3 & I4 & I5 & I6 & I7 & I8 & I9 & I10). cbn [k_ms k_read k_doc k_sent k_taken k_sends k_joins] in *.
    destruct r as [|j]; [destruct I8 as [-> ->]; destruct q as [|? [|? ?]]; try discriminate; destruct n; discriminate|].
    destruct I8 as (n & c & -> & Ec & D & B). set (x := VElem tag a ty l kids) in *. destruct c as [un|un id ml comp].
    + destruct B as (m & ty' & O & Id & Fv & E & Ty & Tn). destruct (uninit_click n m ty' q x O Hq) as (L1 & Ea). rewrite Ea in Ha. injection Ha as <- <-. rewrite L1.
      destruct (listens (bs "initialize_username") x); [|exists us, cs, out, rs; rewrite !app_nil_r; exact I].
      rewrite (uninit_shown n m ty' O), Fv.
      exists (us ++ [UJoin]), cs, out, rs. pose proof (inv_sent (Desk ms (S j) [n] s t cl cj) us cs out rs UJoin [n] I) as R. cbn [k_ms k_read k_doc k_sent k_taken k_sends k_joins] in R.
      apply R; [destruct (last cs chat_new); exact Logic.I|]. exists n, (Uninitialized un). split; [reflexivity|]. split; [exact Ec|]. split; [exact D|].
      exists m, ty'. split; [exact O|]. split; [exact Id|]. rewrite view_snoc. split; [exact Fv|]. split; [apply Forall_app; split; [exact E|repeat constructor]|]. split; [exact Ty|].
      intros Ht. apply Forall_app. split; [auto|repeat constructor].
    + destruct B as (m & ty' & O & Fv & Tn). destruct (init_click n m ty' q x O Hq) as (L1 & Ea). rewrite Ea in Ha. injection Ha as <- <-. rewrite L1.
      destruct (listens (bs "submit_message") x); [|exists us, cs, out, rs; rewrite !app_nil_r; exact I].
      rewrite (init_shown n m ty' O), Fv. destruct (init_last ms cs out j un id ml comp I3 Ec) as (u2 & l2 & c2 & Hlast).
      exists (us ++ [USend]), cs, out, rs. pose proof (inv_sent (Desk ms (S j) [n] s t cl cj) us cs out rs USend [n] I) as R. cbn [k_ms k_read k_doc k_sent k_taken k_sends k_joins] in R.
      apply R; [rewrite Hlast; exact Logic.I|]. exists n, (Initialized un id ml comp). split; [reflexivity|]. split; [exact Ec|]. split; [exact D|].
      exists m, ty'. split; [exact O|]. rewrite view_snoc. split; [exact Fv|]. intros Ht. apply Forall_app. split; [auto|repeat constructor].
  - (* the browser reads *)
    destruct IH as (us & cs & out & rs & I1 & I2 & I3 & I4 & I5 & I6 & I7 & I8 & I9 & I10). cbn [k_ms k_read k_doc k_sent k_taken k_sends k_joins] in *. exists us, cs, out, rs. unfold inv. cbn [k_ms k_read k_doc k_sent k_taken k_sends k_joins].
    pose proof I3 as (A1 & A2 & A3 & A4). assert (out0 = out) as -> by congruence.
    split; [exact I1|]. split; [exact I2|]. split; [exact I3|]. split; [exact I4|]. split; [exact I5|]. split; [exact I6|]. split; [exact I7|]. split; [|auto].
    destruct r as [|j]; cbn [browsing] in *.
    + destruct I8 as [-> ->]. rewrite A3 in Hn. injection Hn as <-. exists (match d' with n :: _ => n | [] => VText [] end), chat_new.
      destruct (browser_first_paint_cut reparse (chat_element chat_new) (chat_tidy chat_new) (chat_nodup chat_new)) as (os & Eo & y & Dy & R). injection Eo as <-.
      pose proof (message_erase reparse (wire first_ops) []) as M. rewrite Hm in M. cbn [map] in M. assert ((map erase d', ok) = ([y], true)) as X by (rewrite <- M; exact R). injection X as X ->.
      destruct d' as [|n [|? ?]]; try discriminate. injection X as X. subst y. split; [reflexivity|]. split; [reflexivity|]. split; [exact Dy|]. cbn [chat_new].
      destruct (uninit_shape n [] Dy) as (m2 & t2 & O & Id & Vl). exists m2, t2. split; [exact O|]. split; [exact Id|].
      assert (incl (ids_typed [n]) []) as Hi.
      { unfold v_message in Hm. rewrite read_wire in Hm. unfold ids_typed. change (@nil (option str)) with (flat_map (tm (fun a ty => match ty with Some _ => [get attr_id a] | None => [] end)) []). eapply run_tm; [reflexivity| |exact Hm].
        apply Forall_map. apply Forall_forall. intros o Hin. apply id_safe_unseen, calm_id_safe. exact (proj1 (create_ops (chat_element chat_new) (chat_neat chat_new) None o Hin)). }
      assert (t2 = None) as ->.
      { destruct t2 as [t2|]; [|reflexivity]. exfalso. destruct O as (m0 & t0 & m1 & t1 & m3 & t3 & m4 & t4 & -> & _). apply (Hi (Some (bs "2"))). unfold ids_typed. cbn [flat_map tm app]. rewrite Id, !in_app_iff. cbn [In]. tauto. }
      split; [unfold field_of; now rewrite Vl|]. split; [constructor|]. split; [intros z Hz; destruct (Hi z Hz)|]. intros _. constructor.
    + destruct I8 as (n & c & -> & Ec & D & B).
      assert (S j < length out) as Lj by (apply nth_error_Some; congruence). rewrite A2 in Lj.
      assert (exists c2, nth_error cs j = Some c2) as (c2 & E2). { destruct (nth_error cs j) eqn:X; [eauto|]. apply nth_error_None in X. lia. }
      destruct (A4 j c c2 Ec E2) as (F & os & Ed & Eo). rewrite Hn in Eo. injection Eo as ->.
      assert (past us c2) as Hpast. { rewrite Forall_forall in I7. apply I7. right. eapply nth_error_In; eauto. }
      destruct F as [u u'|u u' id|u u' id ml ml' comp comp' Hl]; cbn [chat_element] in *.
      * destruct B as (m & ty & O & Id & Fv & E & Ty & Tn). destruct (read_uninit reparse Hre n u u' os m ty D O Ed) as (n' & m' & Em & D' & O' & Vl & Id' & Hi). rewrite Em in Hm. injection Hm as <- <-.
        exists n', (Uninitialized u'). split; [reflexivity|]. split; [exact E2|]. split; [exact D'|]. exists m', ty. split; [exact O'|]. split; [exact Id'|]. split; [|split; [exact E|split; [eapply incl_tran; eauto|exact Tn]]].
        destruct ty as [ty|]; [exact Fv|]. destruct Hpast as (l1 & l2 & El & Hu). specialize (Tn eq_refl). rewrite (no_name us Tn). rewrite El in Tn. apply Forall_app in Tn as [Tn _]. rewrite (no_name l1 Tn) in Hu. subst u'.
        unfold field_of. now rewrite Vl.
      * destruct B as (m & ty & O & Id & Fv & E & Ty & Tn). destruct (read_join reparse Hre n u u' id os D Ty Ed) as (n' & m' & Em & D' & O' & Vl). rewrite Em in Hm. injection Hm as <- <-.
        exists n', (Initialized u' id [] []). split; [reflexivity|]. split; [exact E2|]. split; [exact D'|]. exists m', None. split; [exact O'|]. pose proof (early_not_message us E) as Nm.
        split; [unfold field_of; rewrite Vl; symmetry; now apply no_message|auto].
      * destruct B as (m & ty & O & Fv & Tn). destruct (read_init reparse Hre n u u' id ml ml' comp comp' os m ty Hl D O Ed) as (n' & m' & Em & D' & O' & Vl). rewrite Em in Hm. injection Hm as <- <-.
        exists n', (Initialized u' id ml' comp'). split; [reflexivity|]. split; [exact E2|]. split; [exact D'|]. exists m', ty. split; [exact O'|]. split; [|exact Tn].
        destruct ty as [ty|]; [exact Fv|]. destruct Hpast as (l1 & l2 & El & Hu). specialize (Tn eq_refl). rewrite (no_message us Tn). rewrite El in Tn. apply Forall_app in Tn as [Tn _]. rewrite (no_message l1 Tn) in Hu. subst comp'.
        unfold field_of. now rewrite Vl.
  - (* the process takes a text *)
    destruct IH as (us & cs & out & rs & I1 & I2 & I3 & I4 & I5 & I6 & I7 & I8 & I9 & I10). cbn [k_ms k_read k_doc k_sent k_taken k_sends k_joins] in *.
    rewrite I1, nth_error_map in Hn. destruct (nth_error us t) as [u|] eqn:Eu; [|discriminate]. injection Hn as <-.
    assert (t < length us) as Lt by (apply nth_error_Some; congruence).
    pose proof (u_answered p ms cs out e u I3 Ho) as O. pose proof I3 as (A1 & _). destruct I5 as (S1 & S2 & S3). pose proof (firstn_snoc us t u Eu) as Ef.
    assert (match last cs chat_new with Uninitialized _ => early u | _ => True end) as He.
    { destruct (last cs chat_new); [|exact Logic.I]. rewrite Forall_forall in I6. apply I6. eapply nth_error_In; eauto. }
    assert (forall x, past us x -> past us x) as _ by auto.
    assert (exists l2, us = (firstn t us ++ [u]) ++ l2) as (rest & Erest). { exists (skipn (S t) us). rewrite <- Ef. symmetry. apply firstn_skipn. }
    assert (forall c', (match c' with Uninitialized n => n = vn (view_of (firstn t us ++ [u])) | Initialized _ _ _ comp => comp = vc (view_of (firstn t us ++ [u])) end) -> past us c') as Hpast.
    { intros c' Hc'. exists (firstn t us ++ [u]), rest. split; [exact Erest|exact Hc']. }
    assert (forall cs', browsing us cs r d -> browsing us (cs ++ cs') r d) as Hbr.
    { intros cs' Hb. destruct r as [|j]; [exact Hb|]. destruct Hb as (n & c & -> & Ec & B). exists n, c. split; [reflexivity|]. split; [|exact B]. rewrite app_comm_cons, nth_error_app1; [exact Ec|apply nth_error_Some; congruence]. }
    destruct (u_open u) as [Op1 Op2].
    destruct (served (last cs chat_new) e u) as [[i c1]|] eqn:Es.
    + destruct (u_served _ _ _ _ _ Es) as [Hask Hup]. destruct (alive_update p ms cs out e (u_mail u) i c1 I3 Hask Hup) as (os & A').
      exists us, (cs ++ [c1]), (out ++ [wire os]), (rs ++ match chat_request (last cs chat_new) i p with Some r => [r] | None => [] end).
      unfold inv. cbn [k_ms k_read k_doc k_sent k_taken k_sends k_joins]. rewrite last_snoc, Ef, view_snoc.
      split; [exact I1|]. split; [lia|]. split; [exact A'|]. split; [eapply requested_update; [exact I4|exact A1|exact Hask]|].
      rewrite <- view_snoc.
      assert (at_server (view_of (firstn t us ++ [u])) c1 (rs ++ match chat_request (last cs chat_new) i p with Some r => [r] | None => [] end)) as As.
      { unfold at_server, messages_of, names_of in *. rewrite !flat_map_app, S1, S2, view_snoc.
        destruct (last cs chat_new) as [un|un id ml comp], u as [tx| |tx|]; cbn [served] in Es; try discriminate.
        - injection Es as <- <-. destruct S3 as [_ S3]. cbn [chat_request flat_map vstep vs vr vn]. rewrite !app_nil_r. auto.
        - destruct O as (id & v & ->). injection Es as <- <-. destruct S3 as [-> S3]. cbn [chat_request flat_map vstep vs vr vn vc app]. rewrite !app_nil_r, S3. cbn [firstn app]. split; [reflexivity|]. split; [reflexivity|]. split; [|discriminate].
          symmetry. apply no_message. apply early_not_message. rewrite <- (firstn_skipn t us) in I6. now apply Forall_app in I6.
        - injection Es as <- <-. destruct S3 as [-> S3]. cbn [chat_request flat_map vstep vs vr vn vc app]. rewrite !app_nil_r. auto.
        - destruct O as (m & ->). injection Es as <- <-. destruct S3 as [-> S3]. cbn [chat_request flat_map vstep vs vr vn vc app]. rewrite !app_nil_r. auto. }
      split; [exact As|]. split; [|split; [|split; [now apply Hbr|auto]]].
      * destruct c1; [|exact Logic.I]. destruct (last cs chat_new); [exact I6|]. pose proof (update_follows _ _ _ _ Hup) as Fo. inversion Fo.
      * rewrite app_comm_cons. apply Forall_app. split; [exact I7|]. constructor; [|constructor]. apply Hpast. destruct As as (_ & _ & As). destruct c1; apply As.
    + assert (forall i, ~ asks (chat_listeners (last cs chat_new)) (u_mail u) i) as Hidle.
      { apply u_idle. destruct (last cs chat_new), u; cbn [served] in Es; try discriminate; try exact Logic.I; try contradiction.
        - destruct O as (id & v & ->). discriminate.
        - destruct O as (m & ->). discriminate. }
      exists us, cs, out, rs. unfold inv. cbn [k_ms k_read k_doc k_sent k_taken k_sends k_joins]. rewrite Ef, view_snoc.
      split; [exact I1|]. split; [lia|]. split; [now apply alive_idle|]. split; [eapply requested_idle; [exact I4|exact A1|exact Hidle]|]. split; [|auto].
      unfold at_server in *. destruct (last cs chat_new) as [un|un id ml comp], u as [tx| |tx|]; cbn [served] in Es; try discriminate; try contradiction.
      * destruct O as (id & v & ->). discriminate.
      * cbn [vstep vs vr vc]. auto.
      * destruct S3 as [S3 S4]. cbn [vstep vs vr vc]. split; [exact S1|]. split; [|split; [exact S3|destruct (vr _); discriminate]].
        rewrite S2. destruct (vr (view_of (firstn t us))); [congruence|reflexivity].
      * destruct O as (m & ->). discriminate.
  - (* the process gets a message from another *)
    destruct IH as (us & cs & out & rs & I1 & I2 & I3 & I4 & I5 & I6 & I7 & I8 & I9 & I10). cbn [k_ms k_read k_doc k_sent k_taken k_sends k_joins] in *.
    pose proof I3 as (A1 & _).
    assert (exists c1, chat_update e (last cs chat_new) (ReceiveMessage m) = Some c1 /\ match last cs chat_new with Uninitialized n => c1 = Uninitialized n | Initialized n id ml comp => c1 = Initialized n id (ml ++ [m]) comp end) as (c1 & Hup & Hc1).
    { destruct (last cs chat_new); eexists; split; reflexivity. }
    assert (asks (chat_listeners (last cs chat_new)) (Input (ReceiveMessage m) : mail linput N) (ReceiveMessage m)) as Hask by constructor.
    destruct (alive_update p ms cs out e _ _ c1 I3 Hask Hup) as (os & A').
    exists us, (cs ++ [c1]), (out ++ [wire os]), (rs ++ []). unfold inv. cbn [k_ms k_read k_doc k_sent k_taken k_sends k_joins]. rewrite last_snoc.
    split; [exact I1|]. split; [lia|]. split; [exact A'|]. split.
    { pose proof (requested_update p ms rs e (Input (ReceiveMessage m)) _ _ _ _ _ I4 A1 Hask) as R. destruct (last cs chat_new); exact R. }
    rewrite app_nil_r. split; [|split; [|split; [|split; [|auto]]]].
    + destruct I5 as (S1 & S2 & S3). split; [exact S1|]. split; [exact S2|]. destruct (last cs chat_new); subst c1; exact S3.
    + destruct (last cs chat_new); subst c1; exact I6.
    + rewrite app_comm_cons. apply Forall_app. split; [exact I7|]. constructor; [|constructor].
      assert (past us (last cs chat_new)) as (l1 & l2 & E & H). { rewrite Forall_forall in I7. apply I7. apply (nth_error_In _ (length cs)). apply nth_last. }
      exists l1, l2. split; [exact E|]. destruct (last cs chat_new); subst c1; exact H.
    + destruct r as [|j]; [exact I8|]. destruct I8 as (n & c & -> & Ec & B). exists n, c. split; [reflexivity|]. split; [|exact B]. rewrite app_comm_cons, nth_error_app1; [exact Ec|apply nth_error_Some; congruence].
Qed.
End Inv.
