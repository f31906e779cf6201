(** Proofs about the whole chat example. *)
From Verif Require Import Base HMap Num DomModel ClientModel ClientSpec ComponentModel ComponentSpec ChatModel ChatSpec ChatProofs ChatProofs2.
From Verif Require WsModel.
From Coq Require Import Lia Permutation.

(** Delivery. *)
Definition mine (p : N) (msgs : list (N * linput)) : list linput := map snd (filter (fun m => N.eqb p (fst m)) msgs).
Definition receive_all (msgs : list (N * linput)) (s : session) : session := Session (s_self s) (s_chat s) (s_box s ++ mine (s_self s) msgs).
Lemma deliver_all_map msgs : forall l, deliver_all msgs l = map (receive_all msgs) l.
Proof.
  unfold deliver_all. induction msgs as [|m msgs IH]; intros l; cbn [fold_left].
  - induction l as [|[p c b] l IHl]; [reflexivity|]. cbn [map]. rewrite <- IHl. unfold receive_all. cbn. now rewrite app_nil_r.
  - rewrite IH. unfold deliver. rewrite map_map. apply map_ext. intros [p c b]. unfold receive_all, mine. cbn [s_self s_chat s_box filter].
    destruct (N.eqb p (fst m)); cbn [s_self s_chat s_box map]; [now rewrite <- app_assoc|reflexivity].
Qed.
Lemma receive_none s : receive_all [] s = s.
Proof. destruct s. unfold receive_all. cbn. now rewrite app_nil_r. Qed.
Lemma deliver_nothing l : deliver_all [] l = l.
Proof. reflexivity. Qed.

(** Who a session is. *)
Definition user_of (s : session) : option (N * str) := match s_chat s with Uninitialized _ => None | Initialized u id _ _ => Some (id, u) end.
Definition shown (s : session) : list chat_message := match s_chat s with Uninitialized _ => [] | Initialized _ _ ms _ => ms end.
Definition orderly (id : N) (ms box all : list chat_message) : Prop :=
  said_by id box = [] /\ said_by id ms = said_by id all /\ said_by_others id ms ++ box = said_by_others id all.
Lemma by_app id a b : said_by id (a ++ b) = said_by id a ++ said_by id b.
Proof. apply filter_app. Qed.
Lemma others_app id a b : said_by_others id (a ++ b) = said_by_others id a ++ said_by_others id b.
Proof. apply filter_app. Qed.
Lemma by_none id l : said_by id l = [] -> said_by_others id l = l.
Proof.
  induction l as [|m l IH]; [reflexivity|]. unfold said_by, said_by_others in *. cbn [filter]. destruct (N.eqb (cm_sender m) id); [discriminate|]. intros H. cbn [negb]. now rewrite IH.
Qed.
Definition sess_ok (h : history) (us : nmap (str * N)) (s : session) : Prop :=
  Forall (fun i => exists m, i = ReceiveMessage m) (s_box s) /\
  match user_of s with
  | None => s_box s = []
  | Some (id, u) => nget id us = Some (u, s_self s) /\ exists h2, since_joining h (s_self s) id u h2 /\ Permutation (shown s ++ pending (s_box s)) (said h2) /\
      orderly id (shown s) (pending (s_box s)) (said h2)
  end.
Definition winv (h : history) (w : world) : Prop :=
  serves h (w_server w) /\ NoDup (map s_self (w_sessions w)) /\
  Forall (sess_ok h (users (w_server w))) (w_sessions w) /\
  forall id u p, nget id (users (w_server w)) = Some (u, p) -> exists s, In s (w_sessions w) /\ s_self s = p /\ user_of s = Some (id, u).

Lemma since_snoc h p id u h2 x : since_joining h p id u h2 -> fst x <> RemoveUser id -> (forall v, fst x <> RegisterNewUser v p) ->
  since_joining (h ++ [x]) p id u (h2 ++ [x]).
Proof.
  intros (h1 & -> & F) H1 H2. exists h1. split; [now rewrite <- app_assoc|]. apply Forall_app. split; [exact F|]. constructor; [split; auto|constructor].
Qed.
Lemma said_app a b : said (a ++ b) = said a ++ said b.
Proof. unfold said. now rewrite flat_map_app. Qed.
Lemma pending_app a b : pending (a ++ b) = pending a ++ pending b.
Proof. unfold pending. now rewrite flat_map_app. Qed.

(** The sessions that do not act. *)
Lemma other_ok h us us' x msgs s : sess_ok h us s ->
  (forall id u, user_of s = Some (id, u) -> nget id us' = Some (u, s_self s) /\ fst x <> RemoveUser id /\ (forall v, fst x <> RegisterNewUser v (s_self s)) /\
     mine (s_self s) msgs = map ReceiveMessage (said [x]) /\ said_by id (said [x]) = []) ->
  (user_of s = None -> mine (s_self s) msgs = []) ->
  sess_ok (h ++ [x]) us' (receive_all msgs s).
Proof.
  intros (B & H) H1 H2. unfold sess_ok, receive_all. cbn [s_box s_self s_chat]. change (user_of (Session (s_self s) (s_chat s) (s_box s ++ mine (s_self s) msgs))) with (user_of s).
  change (shown (Session (s_self s) (s_chat s) (s_box s ++ mine (s_self s) msgs))) with (shown s).
  destruct (user_of s) as [[id u]|].
  - destruct (H1 id u eq_refl) as (G & N1 & N2 & -> & Nb). split.
    + apply Forall_app. split; [exact B|]. apply Forall_forall. intros i Hi. apply in_map_iff in Hi as (m & <- & _). eauto.
    + split; [exact G|]. destruct H as (_ & h2 & J & P & O1 & O2 & O3). exists (h2 ++ [x]). split; [now apply since_snoc|].
      rewrite pending_app, said_app. assert (forall l, pending (map ReceiveMessage l) = l) as -> by (induction l as [|m l IH]; [reflexivity|]; cbn; now f_equal).
      split; [rewrite app_assoc; now apply Permutation_app_tail|]. unfold orderly. rewrite !by_app, others_app, Nb, O1, O2, <- O3, !app_nil_r, (by_none _ _ Nb), <- app_assoc. repeat split; reflexivity.
  - rewrite (H2 eq_refl), app_nil_r. auto.
Qed.

Lemma in_split_self (l1 l2 : list session) s t : NoDup (map s_self (l1 ++ s :: l2)) -> In t (l1 ++ s :: l2) -> s_self t = s_self s -> t = s.
Proof.
  intros N Hi E. rewrite map_app in N. cbn [map] in N. apply NoDup_remove_2 in N. apply in_app_iff in Hi as [Hi|[<-|Hi]]; [|reflexivity|];
    exfalso; apply N; rewrite <- E; apply in_app_iff; [left|right]; now apply in_map.
Qed.
Lemma others_differ (l1 l2 : list session) s t : NoDup (map s_self (l1 ++ s :: l2)) -> In t (l1 ++ l2) -> s_self t <> s_self s.
Proof.
  intros N Hi E. rewrite map_app in N. cbn [map] in N. apply NoDup_remove_2 in N. apply N. rewrite <- E, <- map_app. now apply in_map.
Qed.

(** A step that is the session's own business. *)
Lemma winv_local h w l1 s s' l2 : winv h (World w (l1 ++ s :: l2)) -> s_self s' = s_self s -> user_of s' = user_of s ->
  (sess_ok h (users w) s -> sess_ok h (users w) s') -> winv h (World w (l1 ++ s' :: l2)).
Proof.
  intros (S1 & N & F & U) Es Eu Hok. cbn [w_server w_sessions] in *. apply Forall_app in F as [F1 F2]. inversion F2 as [|? ? F3 F4]; subst.
  split; [exact S1|]. cbn [w_server w_sessions]. split; [|split].
  - rewrite map_app in *. cbn [map] in *. now rewrite Es.
  - apply Forall_app. split; [exact F1|]. constructor; auto.
  - intros id u p Hg. destruct (U id u p Hg) as (t & Hi & Hp & Hu). apply in_app_iff in Hi as [Hi|[<-|Hi]].
    + exists t. split; [apply in_app_iff; now left|auto].
    + exists s'. split; [apply in_app_iff; right; now left|]. split; congruence.
    + exists t. split; [apply in_app_iff; right; now right|auto].
Qed.

(** Registration. *)
Lemma winv_register h w l1 p u l2 w' id : winv h (World w (l1 ++ Session p (Uninitialized u) [] :: l2)) ->
  handle w (RegisterNewUser u p) = Some (w', UserRegistered id u, []) ->
  winv (h ++ [(RegisterNewUser u p, UserRegistered id u)]) (World w' (l1 ++ Session p (Initialized u id [] []) [] :: l2)).
Proof.
  intros (S1 & N & F & U) E. cbn [w_server w_sessions] in *. pose proof (serves_step _ _ _ _ _ _ S1 E) as S2.
  assert (users w' = ninsert id (u, p) (users w) /\ nget id (users w) = None) as [Hus Hfresh].
  { pose proof (serves_inv _ _ S1) as (G & NU & Hu). cbn [handle] in E. destruct (get_id (id_gen w)) as [[id0 g]|] eqn:Eg; [|discriminate]. injection E as <- ->. split; [reflexivity|].
    apply nget_none. destruct (get_id_inv _ _ _ G Eg) as (_ & Hn & _). now rewrite Hu. }
  set (x := (RegisterNewUser u p, UserRegistered id u)) in *. split; [exact S2|]. cbn [w_server w_sessions]. split; [rewrite map_app in *; exact N|]. split.
  - assert (forall t, In t (l1 ++ l2) -> sess_ok h (users w) t -> sess_ok (h ++ [x]) (users w') t) as Ho.
    { intros t Ht Hok. rewrite <- (receive_none t). apply (other_ok h (users w)); [exact Hok| |reflexivity]. intros i v Hv. destruct Hok as [_ Hok]. rewrite Hv in Hok. destruct Hok as [Hg _].
      split; [|split; [discriminate|split; [|split; reflexivity]]].
      - rewrite Hus, nget_insert. destruct (N.eqb_spec i id) as [->|]; [congruence|exact Hg].
      - intros v0 [= _ E0]. apply (others_differ _ _ _ _ N Ht). symmetry. exact E0. }
    apply Forall_app in F as [F1 F2]. inversion F2 as [|? ? F3 F4]; subst. rewrite Forall_forall in F1, F4. apply Forall_app. split; [|constructor].
    + apply Forall_forall. intros t Ht. apply Ho; [apply in_app_iff; now left|auto].
    + split; [constructor|]. unfold user_of. cbn [s_chat s_self s_box]. rewrite Hus, nget_insert, N.eqb_refl. split; [reflexivity|]. exists []. split; [|split; [constructor|repeat split]].
      exists h. split; [reflexivity|constructor].
    + apply Forall_forall. intros t Ht. apply Ho; [apply in_app_iff; now right|auto].
  - intros i v q Hg. rewrite Hus, nget_insert in Hg. destruct (N.eqb_spec i id) as [->|Hne].
    + injection Hg as <- <-. eexists. split; [apply in_app_iff; right; now left|]. split; reflexivity.
    + destruct (U i v q Hg) as (t & Hi & Hp & Hu). exists t. split; [|auto]. apply in_app_iff in Hi as [Hi|[<-|Hi]]; [apply in_app_iff; now left|discriminate|apply in_app_iff; right; now right].
Qed.

(** Sending. *)
Definition broadcast (id : N) (m : chat_message) (us : nmap (str * N)) : list (N * linput) :=
  flat_map (fun u => if negb (N.eqb (fst u) id) then [(snd (snd u), ReceiveMessage m)] else []) us.
Lemma broadcast_none id m us p : (forall k v, In (k, (v, p)) us -> k = id) -> mine p (broadcast id m us) = [].
Proof.
  induction us as [|[k [v q]] us IH]; intros H; [reflexivity|]. unfold mine, broadcast. cbn [flat_map fst snd]. destruct (N.eqb_spec k id) as [->|Hn]; cbn [negb app].
  - apply IH. intros; eapply H; right; eassumption.
  - cbn [filter fst]. destruct (N.eqb_spec p q) as [->|]; [exfalso; apply Hn; apply (H k v); now left|]. apply IH. intros; eapply H; right; eassumption.
Qed.
Lemma broadcast_one id m us p k0 v0 : NoDup (map fst us) -> (forall k v, In (k, (v, p)) us -> k = k0) -> In (k0, (v0, p)) us -> k0 <> id ->
  mine p (broadcast id m us) = [ReceiveMessage m].
Proof.
  induction us as [|[k [v q]] us IH]; intros N H Hi Hne; [destruct Hi|]. cbn [map fst] in N. inversion N as [|? ? N1 N2]; subst.
  unfold mine, broadcast. cbn [flat_map fst snd]. fold (broadcast id m us). destruct Hi as [[= -> -> ->]|Hi].
  - destruct (N.eqb_spec k0 id) as [->|_]; [congruence|]. cbn [negb app filter fst map snd]. rewrite N.eqb_refl. cbn [map snd]. f_equal. apply broadcast_none.
    intros k v Hk. assert (k = k0) as -> by (apply (H k v); now right). exfalso. apply N1. now apply (in_map fst) in Hk.
  - assert (mine p (broadcast id m us) = [ReceiveMessage m]) as IH1 by (apply IH; auto; intros; eapply H; right; eauto).
    destruct (negb (N.eqb k id)); [|exact IH1]. cbn [app filter fst]. destruct (N.eqb_spec p q) as [->|]; [|exact IH1].
    exfalso. assert (k = k0) as -> by (apply (H k v); now left). apply N1. now apply (in_map fst) in Hi.
Qed.
Lemma winv_send h w l1 p u id ms comp box l2 : winv h (World w (l1 ++ Session p (Initialized u id ms comp) box :: l2)) ->
  let m := ChatMessage id u comp in
  handle w (SendMessage id comp) = Some (w, ReceiveMessage m, broadcast id m (users w)) /\
  deliver_all (broadcast id m (users w)) (l1 ++ Session p (Initialized u id (ms ++ [m]) comp) box :: l2) =
    map (fun t => match user_of t with None => t | Some _ => Session (s_self t) (s_chat t) (s_box t ++ [ReceiveMessage m]) end) l1 ++
    Session p (Initialized u id (ms ++ [m]) comp) box ::
    map (fun t => match user_of t with None => t | Some _ => Session (s_self t) (s_chat t) (s_box t ++ [ReceiveMessage m]) end) l2 /\
  winv (h ++ [(SendMessage id comp, ReceiveMessage m)]) (World w (deliver_all (broadcast id m (users w)) (l1 ++ Session p (Initialized u id (ms ++ [m]) comp) box :: l2))).
Proof.
  intros (S1 & N & F & U) m. cbn [w_server w_sessions] in *. pose proof (serves_inv _ _ S1) as (G & NU & HU).
  set (s := Session p (Initialized u id ms comp) box) in *. set (s' := Session p (Initialized u id (ms ++ [m]) comp) box).
  assert (sess_ok h (users w) s) as Hs by (rewrite Forall_forall in F; apply F; apply in_app_iff; right; now left).
  destruct Hs as (B & Hg & h2 & J & P & O1 & O2 & O3). cbn [s_self s s_box s_chat] in *.
  assert (handle w (SendMessage id comp) = Some (w, ReceiveMessage m, broadcast id m (users w))) as E by (cbn [handle]; rewrite Hg; reflexivity).
  assert (forall k v t, In (k, (v, s_self t)) (users w) -> In t (l1 ++ s :: l2) -> user_of t = Some (k, v)) as Hback.
  { intros k v t Hk Ht. apply in_nget in Hk; [|exact NU]. destruct (U _ _ _ Hk) as (t' & Ht' & Et & Hu). enough (t = t') by congruence.
    destruct (in_split _ _ Ht') as (a & b & Eab). rewrite Eab in N, Ht. now apply (in_split_self a b t' t). }
  assert (forall t, In t (l1 ++ l2) -> sess_ok h (users w) t -> mine (s_self t) (broadcast id m (users w)) = match user_of t with None => [] | Some _ => [ReceiveMessage m] end) as Hm.
  { intros t Ht [_ Hok]. assert (In t (l1 ++ s :: l2)) as Ht' by (apply in_app_iff in Ht as [|]; apply in_app_iff; [now left|right; now right]).
    destruct (user_of t) as [[i v]|] eqn:Eu.
    - destruct Hok as [Hi _]. apply (broadcast_one _ _ _ _ i v); [exact NU| |now apply nget_in|].
      + intros k v' Hk. apply (Hback _ _ t) in Hk; [congruence|exact Ht'].
      + intros ->. rewrite Hg in Hi. injection Hi as _ Hi. apply (others_differ _ _ _ _ N Ht). symmetry. exact Hi.
    - apply broadcast_none. intros k v Hk. apply (Hback _ _ t) in Hk; [congruence|exact Ht']. }
  assert (mine p (broadcast id m (users w)) = []) as Hmine.
  { apply broadcast_none. intros k v Hk. apply (Hback k v s) in Hk; [|apply in_app_iff; right; now left]. unfold user_of in Hk. cbn in Hk. congruence. }
  assert (forall t, In t (l1 ++ l2) -> sess_ok h (users w) t) as Hok.
  { intros t Ht. rewrite Forall_forall in F. apply F. apply in_app_iff in Ht as [|]; apply in_app_iff; [now left|right; now right]. }
  assert (receive_all (broadcast id m (users w)) s' = s') as Es' by (unfold receive_all, s'; cbn [s_self s_chat s_box]; now rewrite Hmine, app_nil_r).
  split; [exact E|]. rewrite deliver_all_map, map_app. cbn [map]. rewrite Es'. split.
  - f_equal; [|f_equal]; apply map_ext_in; intros t Ht; unfold receive_all; rewrite Hm by (try apply Hok; apply in_app_iff; auto); destruct (user_of t); try reflexivity;
      destruct t; cbn; now rewrite app_nil_r.
  - split; [eapply serves_step; eauto|]. cbn [w_server w_sessions]. split.
    { assert (forall l, map s_self (map (receive_all (broadcast id m (users w))) l) = map s_self l) as Hself by (intros l; rewrite map_map; apply map_ext; reflexivity).
      rewrite map_app. cbn [map]. rewrite !Hself. rewrite map_app in N. exact N. }
    split.
    { assert (forall t, In t (l1 ++ l2) -> sess_ok (h ++ [(SendMessage id comp, ReceiveMessage m)]) (users w) (receive_all (broadcast id m (users w)) t)) as Ho.
      { intros t Ht. apply (other_ok h (users w)); [now apply Hok| |].
        - intros i v Hv. pose proof (Hok _ Ht) as [_ Hi]. rewrite Hv in Hi. destruct Hi as [Hi _]. split; [exact Hi|]. split; [discriminate|]. split; [discriminate|].
          rewrite (Hm _ Ht (Hok _ Ht)), Hv. split; [reflexivity|].
          assert (id <> i) as Hne by (intros <-; rewrite Hg in Hi; injection Hi as _ Hi; apply (others_differ _ _ _ _ N Ht); symmetry; exact Hi).
          cbn. destruct (N.eqb_spec id i); [congruence|reflexivity].
        - intros Hv. rewrite (Hm _ Ht (Hok _ Ht)), Hv. reflexivity. }
      apply Forall_app. split; [|constructor].
      - apply Forall_forall. intros t Ht. apply in_map_iff in Ht as (t0 & <- & Ht). apply Ho. apply in_app_iff. now left.
      - split; [exact B|]. unfold user_of, s', shown. cbn [s_chat s_self s_box]. split; [exact Hg|]. exists (h2 ++ [(SendMessage id comp, ReceiveMessage m)]).
        split; [apply since_snoc; [exact J|discriminate|discriminate]|]. rewrite said_app. cbn [said flat_map snd app].
        unfold shown in P. cbn [s_chat] in P. unfold shown in O2, O3. cbn [s_chat s_box s] in O2, O3. split.
        { rewrite <- P. rewrite <- !app_assoc. apply Permutation_app_head. apply Permutation_app_comm. }
        unfold orderly. rewrite !by_app, !others_app, O1, O2, <- O3. cbn [said_by said_by_others filter cm_sender m]. unfold m. cbn [cm_sender]. rewrite N.eqb_refl. cbn [negb].
        rewrite !app_nil_r. auto.
      - apply Forall_forall. intros t Ht. apply in_map_iff in Ht as (t0 & <- & Ht). apply Ho. apply in_app_iff. now right. }
    { intros i v q Hi. destruct (U i v q Hi) as (t & Ht & Hp & Hu). apply in_app_iff in Ht as [Ht|[<-|Ht]].
      - exists (receive_all (broadcast id m (users w)) t). split; [apply in_app_iff; left; now apply in_map|auto].
      - exists s'. split; [apply in_app_iff; right; now left|]. split; [exact Hp|exact Hu].
      - exists (receive_all (broadcast id m (users w)) t). split; [apply in_app_iff; right; right; now apply in_map|auto]. }
Qed.

(** Leaving. *)
Lemma winv_close h w l1 p u id ms comp box l2 : winv h (World w (l1 ++ Session p (Initialized u id ms comp) box :: l2)) ->
  exists w', handle w (RemoveUser id) = Some (w', Closed, []) /\ winv (h ++ [(RemoveUser id, Closed)]) (World w' (l1 ++ l2)).
Proof.
  intros (S1 & N & F & U). cbn [w_server w_sessions] in *. set (s := Session p (Initialized u id ms comp) box) in *.
  assert (sess_ok h (users w) s) as (_ & Hg & _) by (rewrite Forall_forall in F; apply F; apply in_app_iff; right; now left). cbn [s_self s] in Hg.
  cbn [handle]. eexists. split; [reflexivity|]. split; [eapply serves_step; [exact S1|reflexivity]|]. cbn [w_server w_sessions users]. split; [|split].
  - rewrite map_app in *. cbn [map] in N. now apply NoDup_remove_1 in N.
  - apply Forall_forall. intros t Ht. rewrite <- (receive_none t). assert (sess_ok h (users w) t) as Hok.
    { rewrite Forall_forall in F. apply F. apply in_app_iff in Ht as [|]; apply in_app_iff; [now left|right; now right]. }
    apply (other_ok h (users w)); [exact Hok| |reflexivity]. intros i v Hv. destruct Hok as [_ Hok]. rewrite Hv in Hok. destruct Hok as [Hi _].
    assert (i <> id) as Hne by (intros ->; rewrite Hg in Hi; injection Hi as _ Hi; apply (others_differ _ _ _ _ N Ht); symmetry; exact Hi).
    split; [|split; [|split; [discriminate|split; reflexivity]]].
    + rewrite nget_remove. destruct (N.eqb_spec i id); [congruence|exact Hi].
    + cbn. congruence.
  - intros i v q Hi. rewrite nget_remove in Hi. destruct (N.eqb_spec i id) as [->|Hne]; [discriminate|]. destruct (U i v q Hi) as (t & Ht & Hp & Hu). exists t. split; [|auto].
    apply in_app_iff in Ht as [Ht|[<-|Ht]]; [apply in_app_iff; now left| |apply in_app_iff; now right]. exfalso. unfold user_of in Hu. cbn in Hu. congruence.
Qed.
Lemma winv_leave h w l1 s l2 : winv h (World w (l1 ++ s :: l2)) -> user_of s = None -> winv h (World w (l1 ++ l2)).
Proof.
  intros (S1 & N & F & U) Hs. cbn [w_server w_sessions] in *. split; [exact S1|]. cbn [w_server w_sessions]. split; [|split].
  - rewrite map_app in *. cbn [map] in N. now apply NoDup_remove_1 in N.
  - apply Forall_app in F as [F1 F2]. inversion F2; subst. apply Forall_app. now split.
  - intros i v q Hi. destruct (U i v q Hi) as (t & Ht & Hp & Hu). exists t. split; [|auto].
    apply in_app_iff in Ht as [Ht|[<-|Ht]]; [apply in_app_iff; now left|congruence|apply in_app_iff; now right].
Qed.
Lemma winv_open h w l p : winv h (World w l) -> ~ In p (map s_self l) -> winv h (World w (l ++ [Session p chat_new []])).
Proof.
  intros (S1 & N & F & U) Hp. cbn [w_server w_sessions] in *. split; [exact S1|]. cbn [w_server w_sessions]. split; [|split].
  - rewrite map_app. now apply nodup_snoc.
  - apply Forall_app. split; [exact F|]. constructor; [|constructor]. split; [constructor|reflexivity].
  - intros i v q Hi. destruct (U i v q Hi) as (t & Ht & E). exists t. split; [apply in_app_iff; now left|exact E].
Qed.

(** There are no more users than sessions. *)
Lemma users_bound h w l1 s l2 : winv h (World w (l1 ++ s :: l2)) -> user_of s = None -> (N.of_nat (length (l1 ++ s :: l2)) <= u64_max)%N -> exists id w' u,
  forall v, handle w (RegisterNewUser v (s_self s)) = Some (Server (ninsert id (v, s_self s) (users w)) w', UserRegistered id v, []) /\ u = tt.
Proof.
  intros (S1 & N & F & U) Hs Hl. cbn [w_server w_sessions] in *. pose proof (serves_inv _ _ S1) as ((N1 & N2 & Hd & Hh & Hlen) & NU & HU).
  cbn [handle]. destruct (get_id (id_gen w)) as [[id g]|] eqn:Eg; [exists id, g, tt; now split|]. exfalso. unfold get_id in Eg. destruct (recycle (id_gen w)); [|discriminate].
  destruct (N.ltb_spec (head (id_gen w)) u64_max) as [|Hmax]; [discriminate|]. cbn [length] in Hlen.
  assert (length (in_use (id_gen w)) <= length (l1 ++ l2)) as Hle.
  { set (key := fun t => match user_of t with Some (i, _) => i | None => 0%N end). rewrite <- (map_length key (l1 ++ l2)). apply NoDup_incl_length; [exact N1|].
    intros i Hi. apply HU in Hi. apply in_map_iff in Hi as ([i' [v q]] & <- & Hi). apply in_nget in Hi; [|exact NU]. destruct (U _ _ _ Hi) as (t & Ht & _ & Hu).
    apply in_map_iff. exists t. split; [unfold key; now rewrite Hu|]. apply in_app_iff in Ht as [Ht|[<-|Ht]]; [apply in_app_iff; now left|congruence|apply in_app_iff; now right]. }
  rewrite app_length in *. cbn [length] in Hl. lia.
Qed.

(** A session acts. *)
Lemma act h w l1 p c box0 box i l2 : winv h (World w (l1 ++ Session p c box0 :: l2)) ->
  (box0 = i :: box \/ (box0 = box /\ exists text, asks (chat_listeners c) (@Ws linput N (inl (WsModel.Text text))) i)) ->
  match handle_input w (Session p c box) i with
  | inl _ => (u64_max < N.of_nat (length (l1 ++ Session p c box0 :: l2)))%N
  | inr (w', s', msgs, hh) => winv (h ++ hh) (World w' (deliver_all msgs (l1 ++ s' :: l2)))
  end.
Proof.
  intros W Hi. assert (sess_ok h (users w) (Session p c box0)) as Hs.
  { destruct W as (_ & _ & F & _). cbn [w_sessions w_server] in F. rewrite Forall_forall in F. apply F. apply in_app_iff. right. now left. }
  destruct Hi as [->|(-> & text & Ha)].
  - destruct Hs as [B Hs]. cbn [s_box] in B. inversion B as [|? ? (m & ->) B2]; subst. destruct c as [u|u id ms comp]; [discriminate Hs|].
    cbn [handle_input chat_request s_chat s_self chat_update chat_update1 s_box]. rewrite app_nil_r, deliver_nothing.
    eapply winv_local; [exact W|reflexivity|reflexivity|]. intros (_ & Hg & h2 & J & P & O1 & O2 & O3). split; [exact B2|]. unfold user_of. cbn [s_chat s_self s_box shown] in *. unfold shown in *. cbn [s_chat] in *.
    split; [exact Hg|]. exists h2. split; [exact J|]. cbn [pending flat_map app] in O1, O3, P. fold (pending box) in O1, O3, P. split; [rewrite <- P; now rewrite <- app_assoc|].
    unfold orderly. rewrite by_app, others_app. unfold said_by, said_by_others in *. cbn [filter] in *. destruct (N.eqb (cm_sender m) id); [discriminate|]. cbn [negb].
    split; [exact O1|]. split; [now rewrite app_nil_r|]. now rewrite <- app_assoc.
  - apply chat_asks in Ha as [[=]|(text' & name & payload & _ & _ & Hi)]. destruct c as [u|u id ms comp], Hi as [(_ & v & _ & ->)|(_ & ->)].
    + cbn [handle_input chat_request s_chat s_self chat_update chat_update1 s_box]. rewrite app_nil_r, deliver_nothing. eapply winv_local; [exact W|reflexivity|reflexivity|]. exact (fun x => x).
    + unfold handle_input. cbn [chat_request s_chat s_self]. destruct Hs as [_ Hs]. unfold user_of in Hs. cbn [s_chat s_box] in Hs. subst box. destruct (handle w (RegisterNewUser u p)) as [[[w' res] msgs]|] eqn:E.
      * assert (exists id, res = UserRegistered id u /\ msgs = []) as (id & -> & ->).
        { cbn [handle] in E. destruct (get_id _) as [[id g]|]; [|discriminate]. injection E as _ <- <-. eauto. }
        cbn [chat_update chat_update1 s_box]. rewrite deliver_nothing. eapply winv_register; [exact W|exact E].
      * destruct (N.ltb_spec u64_max (N.of_nat (length (l1 ++ Session p (Uninitialized u) [] :: l2)))) as [|Hle]; [assumption|].
        destruct (users_bound _ _ _ _ _ W eq_refl Hle) as (id & w' & x & H). destruct (H u) as [H1 _]. cbn [s_self] in H1. congruence.
    + cbn [handle_input chat_request s_chat s_self chat_update chat_update1 s_box]. rewrite app_nil_r, deliver_nothing. eapply winv_local; [exact W|reflexivity|reflexivity|]. exact (fun x => x).
    + unfold handle_input. cbn [chat_request s_chat s_self]. destruct (winv_send _ _ _ _ _ _ _ _ _ _ W) as (E & _ & H). rewrite E. cbn [chat_update chat_update1 s_box]. exact H.
Qed.
Lemma world_step_inv h w r : winv h w -> world_step w r ->
  match r with inl _ => (u64_max < N.of_nat (length (w_sessions w)))%N | inr (w', hh) => winv (h ++ hh) w' end.
Proof.
  intros W H. destruct H as [w l p Hp|w l1 p c i box l2 r E|w l1 s l2 text i r Ha E|w l1 s l2].
  - rewrite app_nil_r. now apply winv_open.
  - pose proof (act _ _ _ _ _ _ box i _ W (or_introl eq_refl)) as H. rewrite E in H. destruct r as [e|[[[w' s'] msgs] hh]]; exact H.
  - destruct s as [p c box]. pose proof (act _ _ _ _ _ _ box i _ W (or_intror (conj eq_refl (ex_intro _ text Ha)))) as H. rewrite E in H.
    destruct r as [e|[[[w' s'] msgs] hh]]; exact H.
  - destruct s as [p [u|u id ms comp] box]; cbn [drop_request s_chat].
    + rewrite app_nil_r. eapply winv_leave; [exact W|reflexivity].
    + destruct (winv_close _ _ _ _ _ _ _ _ _ _ W) as (w' & E & H). rewrite E, deliver_nothing. exact H.
Qed.
Lemma world_inv h w : world_reachable h w -> winv h w.
Proof.
  induction 1 as [|h w w' h' R IH S].
  - split; [constructor|]. cbn. split; [constructor|]. split; [constructor|]. intros i u p [=].
  - exact (world_step_inv _ _ _ IH S).
Qed.
