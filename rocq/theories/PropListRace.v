(** C125: connections to the list server that run side by side. *)
From Verif Require Import Base HMap Num Utf8 Io IoProofs HttpModel HttpSpec Httparse HttpProofs2 HttpLemmas RouterModel RouterProofs UpgradeProofs ListModel ListRace PropHttp PropServe PropList PropList2 HttpLemmas2.
From Coq Require Import Lia.

(** ** Specification *)
(** [in_order w order]: [order] lists connections (by the order in which they were accepted), each once, among them all that have ended. Served one
    after the other in this order, from an empty list, they leave the list as it is, and those that have ended got what they got. *)
Definition in_order {U} (ev : env U) im sz pg (w : rworld) (order : list nat) : Prop :=
  NoDup order /\ (forall i out e s b, nth_error (r_conns w) i = Some (Conn s b (Ended out e)) -> In i order) /\
  exists conns, Forall2 (fun i sb => exists st, nth_error (r_conns w) i = Some (Conn (fst sb) (snd sb) st)) order conns /\
    let '(items, got) := list_server ev im sz pg [] conns in
    items = r_items w /\
    forall p i s b out e, nth_error order p = Some i -> nth_error (r_conns w) i = Some (Conn s b (Ended out e)) -> nth_error got p = Some (out, e).

(** ** Proof *)
Lemma conn_split {U} (ev : env U) im sz pg items s budget : list_conn ev im sz pg items s budget =
  match conn_asks ev im sz s budget with
  | None => (items, fst (conn_answers ev im sz pg s None budget), snd (conn_answers ev im sz pg s None budget))
  | Some m => let '(items', r) := list_handle items m in (items', fst (conn_answers ev im sz pg s (Some r) budget), snd (conn_answers ev im sz pg s (Some r) budget))
  end.
Proof.
  unfold list_conn, conn_asks, conn_answers. destruct (serve_conn _ _ _ _ _ _ _ _) as [[|[[h req] st] calls]| | | |]; try reflexivity.
  destruct h; cbn [list_serve handler_asks handler_answers].
  - destruct (encode _ _ _) as [out []]; reflexivity.
  - destruct (into_string _ _ _) as [body| | |]; try reflexivity. destruct (starts_with _ body); cbn [list_handle].
    + destruct (encode _ _ _) as [out []]; reflexivity.
    + destruct (encode _ _ _) as [out []]; reflexivity.
  - destruct (length _ <? 6); [reflexivity|]. destruct (parse_uint _ _) as [n|]; [|reflexivity]. cbn [list_handle]. destruct (_ <? n)%N; destruct (encode _ _ _) as [out []]; reflexivity.
  - destruct (encode _ _ _) as [out []]; reflexivity.
Qed.
Lemma server_snoc {U} (ev : env U) im sz pg s b : forall conns items,
  list_server ev im sz pg items (conns ++ [(s, b)]) =
  let '(items1, got) := list_server ev im sz pg items conns in
  let '(items2, out, e) := list_conn ev im sz pg items1 s b in (items2, got ++ [(out, e)]).
Proof.
  induction conns as [|[s' b'] conns IH]; intros items; cbn [app list_server].
  - destruct (list_conn ev im sz pg items s b) as [[i o] e]. reflexivity.
  - destruct (list_conn ev im sz pg items s' b') as [[i o] e]. rewrite IH. destruct (list_server ev im sz pg i conns) as [i2 got]. destruct (list_conn ev im sz pg i2 s b) as [[i3 o3] e3]. reflexivity.
Qed.
Lemma server_length {U} (ev : env U) im sz pg : forall conns items, length (snd (list_server ev im sz pg items conns)) = length conns.
Proof.
  induction conns as [|[s b] conns IH]; intros items; cbn [list_server]; [reflexivity|]. destruct (list_conn _ _ _ _ _ _ _) as [[i o] e]. specialize (IH i). destruct (list_server ev im sz pg i conns). cbn [snd length] in *. now rewrite IH.
Qed.
(** What is known of a connection, given its position in the order. *)
Definition stage_ok {U} (ev : env U) im sz pg (s : stream) (b : option nat) (st : stage) (res : option (str * list_end)) : Prop :=
  match st with
  | Begun => res = None
  | Waiting m => res = None /\ conn_asks ev im sz s b = Some m
  | Got r => res = Some (conn_answers ev im sz pg s (Some r) b)
  | Ended out e => res = Some (out, e)
  end.
(** The invariant: [order] and what each in it got. *)
Definition race_inv {U} (ev : env U) im sz pg (w : rworld) (order : list nat) : Prop :=
  NoDup order /\
  exists conns, Forall2 (fun i sb => exists st, nth_error (r_conns w) i = Some (Conn (fst sb) (snd sb) st)) order conns /\
    fst (list_server ev im sz pg [] conns) = r_items w /\
    forall i s b st, nth_error (r_conns w) i = Some (Conn s b st) ->
      (In i order /\ forall p, nth_error order p = Some i -> stage_ok ev im sz pg s b st (nth_error (snd (list_server ev im sz pg [] conns)) p)) \/
      (~ In i order /\ stage_ok ev im sz pg s b st None).
Lemma nth_mid {A} (l1 : list A) x l2 i y : nth_error (l1 ++ x :: l2) i = Some y -> (i = length l1 /\ y = x) \/ (i <> length l1 /\ forall z, nth_error (l1 ++ z :: l2) i = Some y).
Proof.
  intros H. destruct (Nat.lt_trichotomy i (length l1)) as [Hl|[->|Hl]].
  - right. split; [lia|]. intros z. rewrite nth_error_app1 in * by exact Hl. exact H.
  - left. split; [reflexivity|]. rewrite nth_error_app2, Nat.sub_diag in H by lia. cbn in H. congruence.
  - right. split; [lia|]. intros z. rewrite nth_error_app2 in * by lia. destruct (i - length l1) as [|k] eqn:E; [lia|]. exact H.
Qed.
Lemma nth_here {A} (l1 : list A) x l2 : nth_error (l1 ++ x :: l2) (length l1) = Some x.
Proof. rewrite nth_error_app2, Nat.sub_diag by lia. reflexivity. Qed.
(** A change of one connection's stage keeps the streams. *)
Lemma streams_kept l1 s b st st' l2 order conns :
  Forall2 (fun i (sb : stream * option nat) => exists x, nth_error (l1 ++ Conn s b st :: l2) i = Some (Conn (fst sb) (snd sb) x)) order conns ->
  Forall2 (fun i (sb : stream * option nat) => exists x, nth_error (l1 ++ Conn s b st' :: l2) i = Some (Conn (fst sb) (snd sb) x)) order conns.
Proof.
  induction 1 as [|i [s' b'] order conns [x H] F IH]; constructor; [|exact IH]. apply nth_mid in H as [[-> H]|[_ H]]; [|exists x; apply H].
  cbn [fst snd] in *. injection H as -> -> ->. exists st'. apply nth_here.
Qed.
Lemma nth_snoc {A} (l : list A) x p y : nth_error (l ++ [x]) p = Some y -> (p = length l /\ y = x) \/ (p < length l /\ nth_error l p = Some y).
Proof.
  intros H. destruct (Nat.lt_ge_cases p (length l)) as [Hl|Hl]; [right; rewrite nth_error_app1 in H by exact Hl; now split|]. left.
  rewrite nth_error_app2 in H by exact Hl. destruct (p - length l) as [|k] eqn:E; cbn in H; [split; [lia|congruence]|destruct k; discriminate].
Qed.
Lemma Forall2_impl' {A B} (P Q : A -> B -> Prop) l m : (forall x y, P x y -> Q x y) -> Forall2 P l m -> Forall2 Q l m.
Proof. intros H. induction 1; constructor; auto. Qed.
Lemma Forall2_in_l {A B} (P : A -> B -> Prop) l m : Forall2 P l m -> forall x, In x l -> exists y, P x y.
Proof. induction 1 as [|x y l m H F IH]; intros z Hz; [destruct Hz|]. destruct Hz as [<-|Hz]; eauto. Qed.
Lemma Forall2_same_length {A B} (P : A -> B -> Prop) l m : Forall2 P l m -> length l = length m.
Proof. induction 1; cbn; congruence. Qed.
Lemma NoDup_snoc {A} (l : list A) x : NoDup l -> ~ In x l -> NoDup (l ++ [x]).
Proof.
  induction 1 as [|y l Hy N IH]; intros Hx; cbn [app]; constructor; [easy|constructor| |].
  - rewrite in_app_iff. intros [H|[->|[]]]; [contradiction|]. apply Hx. now left.
  - apply IH. intros H. apply Hx. now right.
Qed.
Lemma race_inv_step {U} (ev : env U) im sz pg w w' order : race_inv ev im sz pg w order -> race_step ev im sz pg w w' ->
  exists more, race_inv ev im sz pg w' (order ++ more) /\ forall i, In i more -> i < length (r_conns w).
Proof.
  intros (N & conns & F & Ei & S) T. destruct T as [items cs s b|items l1 s b m l2 Ea|items l1 s b out e l2 Ea Eo|items l1 s b m items' r l2 Eh|items l1 s b r out e l2 Eo]; cbn [r_items r_conns] in *.
  - exists []. rewrite app_nil_r. split; [|intros i []]. split; [exact N|]. exists conns. split; [|split; [exact Ei|]].
    + eapply Forall2_impl'; [|exact F]. intros i sb [st H]. exists st. cbn [r_conns]. rewrite nth_error_app1; [exact H|]. apply nth_error_Some. congruence.
    + cbn [r_conns]. intros i s' b' st H. apply nth_snoc in H as [[-> H]|[_ H]]; [|exact (S _ _ _ _ H)]. right. injection H as -> -> ->. split; [|reflexivity].
      intros Hi. destruct (Forall2_in_l _ _ _ F _ Hi) as (sb & st & H). assert (nth_error cs (length cs) <> None) as H' by congruence. apply nth_error_Some in H'. lia.
  - exists []. rewrite app_nil_r. split; [|intros i []]. split; [exact N|]. exists conns. split; [eapply streams_kept; exact F|]. split; [exact Ei|]. cbn [r_conns].
    intros i s' b' st H. apply nth_mid in H as [[-> H]|[_ H]]; [|exact (S _ _ _ _ (H _))]. injection H as -> -> ->.
    destruct (S _ _ _ _ (nth_here l1 (Conn s b Begun) l2)) as [[Hi Hp]|[Hi Hp]].
    + exfalso. destruct (In_nth_error _ _ Hi) as [p Ep]. specialize (Hp p Ep). cbn [stage_ok] in Hp. apply nth_error_None in Hp. rewrite server_length in Hp. rewrite <- (Forall2_same_length _ _ _ F) in Hp.
      assert (nth_error order p <> None) as H by congruence. apply nth_error_Some in H. lia.
    + right. split; [exact Hi|]. now split.
  - assert (~ In (length l1) order) as Hn.
    { intros Hi. destruct (S _ _ _ _ (nth_here l1 (Conn s b Begun) l2)) as [[_ Hp]|[Hx _]]; [|contradiction]. destruct (In_nth_error _ _ Hi) as [p Ep]. specialize (Hp p Ep). cbn [stage_ok] in Hp. apply nth_error_None in Hp. rewrite server_length, <- (Forall2_same_length _ _ _ F) in Hp.
      assert (nth_error order p <> None) as H by congruence. apply nth_error_Some in H. lia. }
    exists [length l1]. split; [|intros i [<-|[]]; rewrite app_length; cbn; lia]. split; [now apply NoDup_snoc|].
    exists (conns ++ [(s, b)]). pose proof (conn_split ev im sz pg items s b) as Ec. rewrite Ea, Eo in Ec. cbn [fst snd] in Ec.
    split; [apply Forall2_app; [eapply streams_kept; exact F|constructor; [|constructor]; exists (Ended out e); apply nth_here]|].
    pose proof (server_length ev im sz pg conns []) as Lg. rewrite server_snoc. destruct (list_server ev im sz pg [] conns) as [it got]. cbn [fst snd] in *. subst it. rewrite Ec. cbn [fst snd]. split; [reflexivity|].
    rewrite <- (Forall2_same_length _ _ _ F) in Lg.
    intros i s' b' st H. apply nth_mid in H as [[-> H]|[Hne H]].
    + injection H as -> -> ->. left. split; [apply in_or_app; right; now left|]. intros p Hp. apply nth_snoc in Hp as [[-> _]|[_ Hp]]; [|apply nth_error_In in Hp; contradiction].
      cbn [stage_ok]. rewrite <- Lg. apply nth_here.
    + destruct (S _ _ _ _ (H _)) as [[Hi Hp]|[Hi Hp]].
      * left. split; [apply in_or_app; now left|]. intros p Ep. apply nth_snoc in Ep as [[_ E]|[Hl Ep]]; [congruence|]. rewrite nth_error_app1 by lia. now apply Hp.
      * right. split; [|exact Hp]. rewrite in_app_iff. intros [Hx|[Hx|[]]]; [contradiction|congruence].
  - destruct (S _ _ _ _ (nth_here l1 (Conn s b (Waiting m)) l2)) as [[Hi Hp]|[Hn [_ Ea]]].
    { exfalso. destruct (In_nth_error _ _ Hi) as [p Ep]. destruct (Hp p Ep) as [Hx _]. apply nth_error_None in Hx. rewrite server_length, <- (Forall2_same_length _ _ _ F) in Hx.
      assert (nth_error order p <> None) as H by congruence. apply nth_error_Some in H. lia. }
    exists [length l1]. split; [|intros i [<-|[]]; rewrite app_length; cbn; lia]. split; [now apply NoDup_snoc|].
    exists (conns ++ [(s, b)]). pose proof (conn_split ev im sz pg items s b) as Ec. rewrite Ea, Eh in Ec.
    split; [apply Forall2_app; [eapply streams_kept; exact F|constructor; [|constructor]; exists (Got r); apply nth_here]|].
    pose proof (server_length ev im sz pg conns []) as Lg. rewrite server_snoc. destruct (list_server ev im sz pg [] conns) as [it got]. cbn [fst snd] in *. subst it. rewrite Ec. cbn [fst snd]. split; [reflexivity|].
    rewrite <- (Forall2_same_length _ _ _ F) in Lg.
    intros i s' b' st H. apply nth_mid in H as [[-> H]|[Hne H]].
    + injection H as -> -> ->. left. split; [apply in_or_app; right; now left|]. intros p Hp. apply nth_snoc in Hp as [[-> _]|[_ Hp]]; [|apply nth_error_In in Hp; contradiction].
      cbn [stage_ok]. rewrite <- Lg, nth_here. destruct (conn_answers _ _ _ _ _ _ _); reflexivity.
    + destruct (S _ _ _ _ (H _)) as [[Hi Hp]|[Hi Hp]].
      * left. split; [apply in_or_app; now left|]. intros p Ep. apply nth_snoc in Ep as [[_ E]|[Hl Ep]]; [congruence|]. rewrite nth_error_app1 by lia. now apply Hp.
      * right. split; [|exact Hp]. rewrite in_app_iff. intros [Hx|[Hx|[]]]; [contradiction|congruence].
  - exists []. rewrite app_nil_r. split; [|intros i []]. split; [exact N|]. exists conns. split; [eapply streams_kept; exact F|]. split; [exact Ei|]. cbn [r_conns].
    intros i s' b' st H. apply nth_mid in H as [[-> H]|[_ H]]; [|exact (S _ _ _ _ (H _))]. injection H as -> -> ->.
    destruct (S _ _ _ _ (nth_here l1 (Conn s b (Got r)) l2)) as [[Hi Hp]|[Hi Hp]]; [|discriminate].
    left. split; [exact Hi|]. intros p Ep. specialize (Hp p Ep). cbn [stage_ok] in *. now rewrite Hp, Eo.
Qed.
Lemma race_inv_steps {U} (ev : env U) im sz pg w w' order : race_inv ev im sz pg w order -> race_steps ev im sz pg w w' ->
  exists more, race_inv ev im sz pg w' (order ++ more).
Proof.
  intros I T. induction T as [|w1 w2 T [more IH] S]; [exists []; now rewrite app_nil_r|].
  destruct (race_inv_step ev im sz pg w1 w2 _ IH S) as (more' & H & _). exists (more ++ more'). now rewrite app_assoc.
Qed.
Lemma race_inv_init {U} (ev : env U) im sz pg : race_inv ev im sz pg race_init [].
Proof.
  split; [constructor|]. exists []. split; [constructor|]. split; [reflexivity|]. intros i s b st H. destruct i; discriminate.
Qed.
Lemma race_inv_order {U} (ev : env U) im sz pg w order : race_inv ev im sz pg w order -> in_order ev im sz pg w order.
Proof.
  intros (N & conns & F & Ei & S). split; [exact N|]. split.
  - intros i out e s b H. destruct (S _ _ _ _ H) as [[Hi _]|[_ Hx]]; [exact Hi|discriminate].
  - exists conns. split; [exact F|]. destruct (list_server ev im sz pg [] conns) as [items got]. cbn [fst snd] in *. split; [exact Ei|].
    intros p i s b out e Hp H. destruct (S _ _ _ _ H) as [[_ Hx]|[_ Hx]]; [|discriminate]. exact (Hx p Hp).
Qed.

(** ** C125 *)
(** However the processes take turns, there is an order in which the connections, served one after the other, leave the same list and get the
    same answers. *)
Theorem C125_one_after_another : forall U (ev : env U) im sz pg w, race_steps ev im sz pg race_init w -> exists order, in_order ev im sz pg w order.
Proof.
  intros U ev im sz pg w T. destruct (race_inv_steps ev im sz pg _ _ _ (race_inv_init ev im sz pg) T) as [order I]. exists order. now apply race_inv_order.
Qed.
Print Assumptions C125_one_after_another.
(** The order is one in time: it only grows at its end. So a connection that has ended comes before every one accepted later. *)
Theorem C125_in_time : forall U (ev : env U) im sz pg w w', race_steps ev im sz pg race_init w -> race_steps ev im sz pg w w' ->
  exists order more, in_order ev im sz pg w order /\ in_order ev im sz pg w' (order ++ more) /\
    (forall i s b out e, nth_error (r_conns w) i = Some (Conn s b (Ended out e)) -> In i order) /\
    (forall j, length (r_conns w) <= j -> ~ In j order).
Proof.
  intros U ev im sz pg w w' T T'. destruct (race_inv_steps ev im sz pg _ _ _ (race_inv_init ev im sz pg) T) as [order I]. destruct (race_inv_steps ev im sz pg _ _ _ I T') as [more I'].
  exists order, more. cbn [app] in *. split; [now apply race_inv_order|]. split; [now apply race_inv_order|]. split.
  - intros i s b out e. destruct (race_inv_order _ _ _ _ _ _ I) as (_ & H & _). apply H.
  - intros j Hj Hi. destruct I as (_ & conns & F & _). destruct (Forall2_in_l _ _ _ F _ Hi) as (sb & st & H). assert (nth_error (r_conns w) j <> None) as Hx by congruence. apply nth_error_Some in Hx. lia.
Qed.
Print Assumptions C125_in_time.

(** ** What was added is read *)
Lemma list_conn_grows {U} (ev : env U) im sz pg items s b t : image_ok im eq eq -> In t items -> In t (fst (fst (list_conn ev im sz pg items s b))).
Proof.
  intros Him H. destruct (C95_only_posts_change U ev im sz pg items s b Him) as [->|(req & x & _ & _ & _ & _ & _ & _ & ->)]; [exact H|]. apply in_or_app. now left.
Qed.
Lemma server_keeps {U} (ev : env U) im sz pg t s b : image_ok im eq eq -> forall conns items q, In t items -> nth_error conns q = Some (s, b) ->
  exists l, In t l /\ nth_error (snd (list_server ev im sz pg items conns)) q = Some (snd (fst (list_conn ev im sz pg l s b)), snd (list_conn ev im sz pg l s b)).
Proof.
  intros Him. induction conns as [|[s' b'] conns IH]; intros items q Ht Hq; [destruct q; discriminate|]. cbn [list_server].
  destruct (list_conn ev im sz pg items s' b') as [[items1 out] e] eqn:E. pose proof (list_conn_grows ev im sz pg items s' b' t Him Ht) as H1. rewrite E in H1. cbn [fst] in H1.
  destruct q as [|q]; cbn [nth_error] in Hq.
  - injection Hq as -> ->. exists items. split; [exact Ht|]. rewrite E. destruct (list_server ev im sz pg items1 conns). reflexivity.
  - destruct (IH items1 q H1 Hq) as (l & Hl & Hx). exists l. split; [exact Hl|]. destruct (list_server ev im sz pg items1 conns). exact Hx.
Qed.
Lemma server_added {U} (ev : env U) im sz pg t s0 b0 s b : image_ok im eq eq -> posting ev sz s0 [t] -> forall conns items p q, p < q ->
  nth_error conns p = Some (s0, b0) -> nth_error conns q = Some (s, b) ->
  exists l, In t l /\ nth_error (snd (list_server ev im sz pg items conns)) q = Some (snd (fst (list_conn ev im sz pg l s b)), snd (list_conn ev im sz pg l s b)).
Proof.
  intros Him Hpost. induction conns as [|[s' b'] conns IH]; intros items p q Hpq Hp Hq; [destruct p; discriminate|]. cbn [list_server].
  destruct q as [|q]; [lia|]. destruct (list_conn ev im sz pg items s' b') as [[items1 out] e] eqn:E. cbn [nth_error] in Hq.
  destruct p as [|p]; cbn [nth_error] in Hp.
  - injection Hp as -> ->. pose proof (list_conn_items ev im sz pg items s0 b0 [t] Him Hpost) as H1. rewrite E in H1. cbn [fst] in H1.
    assert (In t items1) as Ht by (rewrite H1; apply in_or_app; right; now left).
    destruct (server_keeps ev im sz pg t s b Him conns items1 q Ht Hq) as (l & Hl & Hx). exists l. split; [exact Hl|]. destruct (list_server ev im sz pg items1 conns). exact Hx.
  - destruct (IH items1 p q ltac:(lia) Hp Hq) as (l & Hl & Hx). exists l. split; [exact Hl|]. destruct (list_server ev im sz pg items1 conns). exact Hx.
Qed.
Lemma Forall2_nth_l {A B} (P : A -> B -> Prop) l m : Forall2 P l m -> forall p x, nth_error l p = Some x -> exists y, nth_error m p = Some y /\ P x y.
Proof. induction 1 as [|x y l m H F IH]; intros [|p] z E; cbn [nth_error] in *; try discriminate; [injection E as <-; eauto|eauto]. Qed.
Lemma steps_keep {U} (ev : env U) im sz pg w w' : race_steps ev im sz pg w w' ->
  forall i s b out e, nth_error (r_conns w) i = Some (Conn s b (Ended out e)) -> nth_error (r_conns w') i = Some (Conn s b (Ended out e)).
Proof.
  intros T. induction T as [|w1 w2 T IH S]; intros i s b out e H; [exact H|]. specialize (IH _ _ _ _ _ H). clear H T.
  destruct S as [items cs s' b'|items l1 s' b' m l2 _|items l1 s' b' o e' l2 _ _|items l1 s' b' m items' r l2 _|items l1 s' b' r o e' l2 _]; cbn [r_conns] in *.
  - rewrite nth_error_app1; [exact IH|]. apply nth_error_Some. congruence.
  - apply nth_mid in IH as [[_ H]|[_ H]]; [discriminate|apply H].
  - apply nth_mid in IH as [[_ H]|[_ H]]; [discriminate|apply H].
  - apply nth_mid in IH as [[_ H]|[_ H]]; [discriminate|apply H].
  - apply nth_mid in IH as [[_ H]|[_ H]]; [discriminate|apply H].
Qed.
(** An item whose POST has ended is on every page of items asked for by a connection accepted afterwards, whatever other connections do meanwhile. *)
Theorem C125_added_is_read : forall U (ev : env U) im sz pg w w' i s b out e t j s' b' out' e' req body n,
  image_ok im eq eq -> positive sz -> (31 <= usize_bits ev)%N -> race_steps ev im sz pg race_init w -> race_steps ev im sz pg w w' ->
  nth_error (r_conns w) i = Some (Conn s b (Ended out e)) -> posting ev sz s [t] ->
  length (r_conns w) <= j -> nth_error (r_conns w') j = Some (Conn s' b' (Ended out' e')) ->
  request_parse ev s' = Ok (Some req) -> into_bytes sz (rq_body req) = Ok body -> url_segments ev (rq_url req) = path_segments (url_path ev (rq_url req)) ->
  url_path ev (rq_url req) = bs "/read/" ++ dec n -> (n <= 2 ^ 31 - 1)%N ->
  exists l, In t l /\ out' = written (text_page (bs "text/html") (items_html pg l)) b'.
Proof.
  intros U ev im sz pg w w' i s b out e t j s' b' out' e' req body n Him Hsz Hbits T T' Hi Hpost Hj Hj' Hreq Hbody Hseg Hpath Hn.
  destruct (C125_in_time U ev im sz pg w w' T T') as (order & more & _ & (N & Hall & conns & F & Hs) & Hin & Hnew).
  specialize (Hin _ _ _ _ _ Hi). specialize (Hnew j Hj). pose proof (Hall _ _ _ _ _ Hj') as Hjin.
  destruct (In_nth_error _ _ Hin) as [p Hp]. assert (p < length order) as Lp by (apply nth_error_Some; congruence).
  apply in_app_or in Hjin as [H|Hjin]; [contradiction|]. destruct (In_nth_error _ _ Hjin) as [q Hq].
  assert (nth_error (order ++ more) p = Some i) as Hp' by (rewrite nth_error_app1; assumption).
  assert (nth_error (order ++ more) (length order + q) = Some j) as Hq' by (rewrite nth_error_app2 by lia; now replace (length order + q - length order) with q by lia).
  destruct (Forall2_nth_l _ _ _ F _ _ Hp') as ([s1 b1] & Cp & st1 & E1). destruct (Forall2_nth_l _ _ _ F _ _ Hq') as ([s2 b2] & Cq & st2 & E2). cbn [fst snd] in *.
  pose proof (steps_keep ev im sz pg w w' T' _ _ _ _ _ Hi) as Hi'. rewrite Hi' in E1. injection E1 as <- <- _. rewrite Hj' in E2. injection E2 as <- <- _.
  destruct (server_added ev im sz pg t s b s' b' Him Hpost conns [] p (length order + q) ltac:(lia) Cp Cq) as (l & Hl & Hx).
  destruct (list_server ev im sz pg [] conns) as [items got]. cbn [snd] in Hx. destruct Hs as [_ Hs]. rewrite (Hs _ _ _ _ _ _ Hq' Hj') in Hx.
  exists l. split; [exact Hl|]. apply (f_equal (fun o => match o with Some x => fst x | None => [] end)) in Hx. cbn [fst] in Hx. rewrite Hx. clear Hx.
  pose proof (C95_same_answers U ev im sz pg l s' req body b' Him Hsz Hreq Hbody Hseg) as A. rewrite Hpath in A.
  assert (forall m d bd, list_request (usize_max (usize_bits ev)) (max_string ev) l m (bs "/read/" ++ dec n) d bd = (l, ItemsPage l)) as R.
  { intros m d bd. apply read_all; [|exact Hn]. unfold usize_max.
    assert (2 ^ 31 <= 2 ^ usize_bits ev)%N by (apply N.pow_le_mono_r; lia). lia. }
  rewrite R in A. cbn [answer_text] in A. destruct A as [A _]. now rewrite A.
Qed.
Print Assumptions C125_added_is_read.

(** Two posts and a reader between them: the second post is accepted first and asks first, but is handled last. *)
Definition race_env := demo_env (@rev _).
Definition race_tea := list_request_bytes (bs "POST") (bs "/submit") (bs "message=tea").
Definition race_milk := list_request_bytes (bs "POST") (bs "/submit") (bs "message=milk").
Definition race_read := list_request_bytes (bs "GET") (bs "/read/7") [].
Definition race_done (html : str) : stage := Ended (text_page (bs "text/html") html) LDone.
Example C125_example : exists w w', race_steps race_env list_image sz1 demo_pages race_init w /\ race_steps race_env list_image sz1 demo_pages w w' /\
  w = RWorld [bs "tea"] [Conn race_milk None (Waiting (AddItem (bs "milk"))); Conn race_tea None (race_done (bs "added"))] /\
  w' = RWorld [bs "tea"; bs "milk"] [Conn race_milk None (race_done (bs "added")); Conn race_tea None (race_done (bs "added")); Conn race_read None (race_done (bs "<p>Item: tea</p>"))] /\
  in_order race_env list_image sz1 demo_pages w' [1; 2; 0] /\ posting race_env sz1 race_tea [bs "tea"].
Proof.
  eexists _, _. split; [|split; [|split; [reflexivity|split; [reflexivity|split]]]].
  - eapply more_steps; [eapply more_steps; [eapply more_steps; [eapply more_steps; [eapply more_steps; [eapply more_steps; [apply no_step|]|]|]|]|]|].
    + apply (accepts _ _ _ _ [] [] race_milk None).
    + apply (asks _ _ _ _ [] [] race_milk None (AddItem (bs "milk")) []). vm_compute. reflexivity.
    + apply (accepts _ _ _ _ [] [Conn race_milk None (Waiting (AddItem (bs "milk")))] race_tea None).
    + apply (asks _ _ _ _ [] [Conn race_milk None (Waiting (AddItem (bs "milk")))] race_tea None (AddItem (bs "tea")) []). vm_compute. reflexivity.
    + apply (handles _ _ _ _ [] [Conn race_milk None (Waiting (AddItem (bs "milk")))] race_tea None (AddItem (bs "tea")) [bs "tea"] Added []). reflexivity.
    + apply (answers _ _ _ _ [bs "tea"] [Conn race_milk None (Waiting (AddItem (bs "milk")))] race_tea None Added (text_page (bs "text/html") (bs "added")) LDone []). vm_compute. reflexivity.
  - eapply more_steps; [eapply more_steps; [eapply more_steps; [eapply more_steps; [eapply more_steps; [eapply more_steps; [apply no_step|]|]|]|]|]|].
    + apply (accepts _ _ _ _ [bs "tea"] _ race_read None).
    + apply (asks _ _ _ _ [bs "tea"] [Conn race_milk None (Waiting (AddItem (bs "milk"))); Conn race_tea None (race_done (bs "added"))] race_read None (LastN 7) []). vm_compute. reflexivity.
    + apply (handles _ _ _ _ [bs "tea"] [Conn race_milk None (Waiting (AddItem (bs "milk"))); Conn race_tea None (race_done (bs "added"))] race_read None (LastN 7) [bs "tea"] (Items [bs "tea"]) []). reflexivity.
    + apply (handles _ _ _ _ [bs "tea"] [] race_milk None (AddItem (bs "milk")) [bs "tea"; bs "milk"] Added [Conn race_tea None (race_done (bs "added")); Conn race_read None (Got (Items [bs "tea"]))]). reflexivity.
    + apply (answers _ _ _ _ [bs "tea"; bs "milk"] [] race_milk None Added (text_page (bs "text/html") (bs "added")) LDone [Conn race_tea None (race_done (bs "added")); Conn race_read None (Got (Items [bs "tea"]))]). vm_compute. reflexivity.
    + apply (answers _ _ _ _ [bs "tea"; bs "milk"] [Conn race_milk None (race_done (bs "added")); Conn race_tea None (race_done (bs "added"))] race_read None (Items [bs "tea"]) (text_page (bs "text/html") (bs "<p>Item: tea</p>")) LDone []). vm_compute. reflexivity.
  - split; [repeat constructor; cbn [In]; intuition discriminate|]. split.
    + intros i out e s b H. destruct i as [|[|[|i]]]; cbn [In]; auto. cbn in H. destruct i; discriminate.
    + exists [(race_tea, None); (race_read, None); (race_milk, None)]. split; [repeat (constructor; [eexists; reflexivity|]); constructor|].
      replace (list_server race_env list_image sz1 demo_pages [] [(race_tea, None); (race_read, None); (race_milk, None)])
        with ([bs "tea"; bs "milk"], [(text_page (bs "text/html") (bs "added"), LDone); (text_page (bs "text/html") (bs "<p>Item: tea</p>"), LDone); (text_page (bs "text/html") (bs "added"), LDone)])
        by (vm_compute; reflexivity).
      split; [reflexivity|]. intros p i s b out e Hp H.
      destruct p as [|[|[|p]]]; [injection Hp as <-|injection Hp as <-|injection Hp as <-|destruct p; discriminate]; cbn [r_conns nth_error] in H; unfold race_done in H; injection H as _ _ <- <-; reflexivity.
  - destruct (request_parse race_env race_tea) as [[req|]| | |] eqn:E; [|vm_compute in E; discriminate..].
    assert (rq_method req = Post /\ url_segments race_env (rq_url req) = Some [bs "submit"] /\ into_bytes sz1 (rq_body req) = Ok (bs "message=tea") /\ b_length (rq_body req) = Some 11%N) as (H1 & H2 & H3 & H4)
      by (vm_compute in E; injection E as <-; repeat split; vm_compute; reflexivity).
    change [bs "tea"] with [bs "tea"]. apply (posts_one race_env sz1 race_tea req (bs "tea") E H1 H2 H3).
    + apply valid_utf8_iff. vm_compute. reflexivity.
    + rewrite <- too_long_iff, H4. vm_compute. discriminate.
Qed.
