(** The browser follows the server: creation of a whole page and updates. *)
From Verif Require InnerHtml.
From Verif Require Import Base HMap Num Utf8 Json DomModel DomSpec DomProofs DomProofs2 DomProofs3 DomProofs4 ClientModel ClientSpec ClientProofs.
From Coq Require Import Lia.

Section Browser2.
Context (reparse : str -> str -> list node -> list node) (reparse_std : InnerHtml.standard reparse).
Notation jruns := (jruns reparse).

Definition tidy (e : element) : Prop := every (fun e => hm_wf (el_attrs e)) e /\ neat e.
Notation bsafe := (safe_with browser_pair).

Definition jedits (a b : element) : Prop := exists os, diff_to b a = Some os /\
  forall x, displays x a -> exists b', displays b' b /\ jruns (fun i => In i (ids a) \/ In i (created b a)) os [x] [b'].
Definition jedits_when (d : element) : Prop := forall c, bsafe c d -> tidy c -> tidy d -> jedits c d.

Lemma tidy_kids e : tidy e -> Forall tidy (el_children e).
Proof.
  intros [W C]. pose proof (every_children _ _ W) as W'. pose proof (every_children _ _ C) as C'.
  rewrite Forall_forall in *. intros c Hc. split; [now apply W'|now apply C'].
Qed.

(** Reaching through the node's attributes, its text and the finished siblings. *)
Definition outside (r : N) (m m0 : hmap str) (T : list node) : Prop := amap r m m0 /\ flat_map nids T = [].
Lemma outside_avoid r m m0 T done done' l i : outside r m m0 T -> Forall2 displays done' done -> avoids l r done -> In i l ->
  get attr_id m <> Some (dec i) /\ ~ In (dec i) (flat_map nids (T ++ done')).
Proof.
  intros [[Hm _] HT] Hd Hav Hi. destruct (Hav i Hi) as [H1 H2]. split.
  - rewrite Hm. intros [= E]. apply dec_inj in E. congruence.
  - rewrite flat_map_app, HT. cbn [app]. rewrite (displays_nids_list _ _ Hd), in_map_dec. exact H2.
Qed.

Lemma jzip_runs r done cs ds : kids_safe bsafe r done cs ds ->
  Forall jedits_when ds -> Forall tidy cs -> Forall tidy ds ->
  exists os, cat_ops (zip_ops ds cs) = Some os /\
    forall (S : N -> Prop) T done' xs tag m m0 l, outside r m m0 T ->
      Forall2 displays done' done -> Forall2 displays xs (firstn (length ds) cs) ->
      (forall i, In i (ids_of cs) \/ In i (created_list ds cs) -> S i) ->
      exists ys, Forall2 displays ys (firstn (length cs) ds) /\
        jruns S os [Elem tag m l (T ++ done' ++ xs)] [Elem tag m l (T ++ done' ++ ys)].
Proof.
  induction 1 as [done|done c cs|done c cs d ds Hcd Hav Hk IH|done d ds Hnd Hav Hk IH]; intros Hed Hpc Hpd.
  - exists []. split; [reflexivity|]. intros S T done' xs tag m m0 l Hm Vd Vx SS. cbn in Vx. inversion Vx; subst.
    exists []. split; constructor.
  - exists []. split; [reflexivity|]. intros S T done' xs tag m m0 l Hm Vd Vx SS. cbn in Vx. inversion Vx; subst.
    exists []. split; [destruct (length (c :: cs)); constructor|]. constructor.
  - inversion Hed as [|? ? E1 E2]; subst. inversion Hpc as [|? ? C1 C2]; subst. inversion Hpd as [|? ? D1 D2]; subst.
    destruct (E1 c Hcd C1 D1) as (os1 & Ho1 & R1). destruct (IH E2 C2 D2) as (os2 & Ho2 & R2).
    exists (os1 ++ os2). split. { cbn [zip_ops cat_ops]. now rewrite Ho1, Ho2. }
    intros S T done' xs tag m m0 l Hm Vd Vx SS. cbn [length firstn] in Vx |- *. inversion Vx as [|x ? xs' ? V1 V2]; subst.
    destruct (R1 x V1) as (y & Vy & Ry).
    destruct (R2 S T (done' ++ [y]) xs' tag m m0 l Hm) as (ys & Vys & Rys); auto.
    { now apply forall2_app_one. }
    { intros i Hi. apply SS. cbn [created_list]. rewrite ids_of_cons, !in_app_iff. tauto. }
    exists (y :: ys). split; [now constructor|]. eapply jruns_app.
    + rewrite app_assoc. change (x :: xs') with ([x] ++ xs'). eapply jruns_lift; [exact Ry| |].
      * intros i Hi. eapply outside_avoid; eauto. apply in_or_app. exact Hi.
      * intros i Hi. cbn beta in Hi. apply SS. cbn [created_list]. rewrite !ids_of_cons, !in_app_iff. tauto.
    + rewrite <- !app_assoc in Rys. rewrite <- ?app_assoc. exact Rys.
  - exists []. split; [reflexivity|]. intros S T done' xs tag m m0 l Hm Vd Vx SS. cbn [firstn length] in Vx. inversion Vx; subst.
    exists []. split; constructor.
Qed.

(** All children, by position. *)
Lemma jplain_runs r cs ds : kids_safe bsafe r [] cs ds ->
  Forall (fun c => avoids [el_id c] r (firstn (length ds) cs)) (skipn (length ds) cs) ->
  Forall jedits_when ds -> Forall tidy cs -> Forall tidy ds ->
  exists os, plain_kids r cs ds = Some os /\
    forall (S : N -> Prop) T xs tag m m0 l, outside r m m0 T ->
      Forall2 displays xs cs -> S r -> (forall i, In i (ids_of cs) \/ In i (created_list ds cs) -> S i) ->
      exists ys, Forall2 displays ys ds /\ jruns S os [Elem tag m l (T ++ xs)] [Elem tag m l (T ++ ys)].
Proof.
  intros Hk Hdel Hed Hpc Hpd.
  destruct (jzip_runs r [] cs ds Hk Hed Hpc Hpd) as (zos & Ez & Hz).
  exists (map (fun c => Op (id_str c) DeleteEl) (skipn (length ds) cs) ++ zos ++ flat_map (fun d => create_from_scratch d (Some (dec r))) (skipn (length cs) ds)).
  split. { unfold plain_kids. cbn [cat_ops]. rewrite Ez. now rewrite app_nil_r. }
  intros S T xs tag m m0 l Hm Vx Sr SS.
  (* deletions *)
  assert (jruns S (map (fun c => Op (id_str c) DeleteEl) (skipn (length ds) cs)) [Elem tag m l (T ++ xs)] [Elem tag m l (T ++ firstn (length ds) xs)]) as R1.
  { rewrite <- (firstn_skipn (length ds) xs) at 1. rewrite app_assoc. eapply jdeletes_runs.
    - apply Hm.
    - now apply forall2_skipn.
    - rewrite Forall_forall in Hdel |- *. intros c Hc. destruct (Hdel c Hc (el_id c)) as [H1 H2]; [now left|]. split; [exact H1|].
      destruct Hm as [_ HT]. rewrite flat_map_app, HT. cbn [app].
      now rewrite (displays_nids_list _ _ (forall2_firstn _ (length ds) _ _ Vx)), in_map_dec.
    - intros i Hi. apply SS. left. now apply in_ids_skipn in Hi. }
  (* pairs *)
  destruct (Hz S T [] (firstn (length ds) xs) tag m m0 l Hm) as (ys & Vy & R2); auto.
  { now apply forall2_firstn. }
  (* creations *)
  apply kids_safe_drop in Hk. cbn [app] in Hk. apply kids_safe_new in Hk as [N1 N2]; [|reflexivity].
  pose proof (forall_skipn _ (length cs) _ Hpd) as Hg.
  destruct (jcreates_list reparse (skipn (length cs) ds)) with (S := S) (r := r) (tag := tag) (m := m) (m0 := m0) (l := l) (K := T ++ ys) as (zs & Vz & R3); auto.
  { apply Forall_forall. intros d _. apply jcreate_runs. }
  { eapply Forall_impl; [|exact Hg]. intros d H. apply H. }
  { eapply Forall_impl; [|exact Hg]. intros d H. apply H. }
  { apply Hm. }
  { intros i Hi. destruct (N2 i Hi) as [H1 H2]. split; [exact H1|]. destruct Hm as [_ HT]. rewrite flat_map_app, HT. cbn [app].
    now rewrite (displays_nids_list _ _ Vy), in_map_dec. }
  { intros i Hi. apply SS. right. now apply created_list_skip. }
  exists (ys ++ zs). split.
  { rewrite <- (firstn_skipn (length cs) ds). now apply Forall2_app. }
  eapply jruns_app; [exact R1|]. eapply jruns_app; [exact R2|]. rewrite <- app_assoc in R3. exact R3.
Qed.

(* ------------------------------------------------------------------ *)
(** ** Keyed children *)

Lemma jkeyed_pairs mine r done cs ds : keyed_safe bsafe r done cs ds ->
  (exists mine1, mine = mine1 ++ cs) -> NoDup (map el_key mine) -> Forall (fun c => is_keyed c = true) ds ->
  Forall jedits_when ds -> Forall tidy cs -> Forall tidy ds ->
  (exists M, mixed M cs ds /\
  exists os, cat_ops (pair_ops mine ds) = Some os /\ (forall i, unpaired mine i ds = []) /\
    forall (S : N -> Prop) T done' xs tag m m0 l, outside r m m0 T ->
      Forall2 displays done' done -> Forall2 displays xs cs ->
      (forall i, In i (ids_of cs) \/ In i (ids_of ds) -> S i) ->
      exists ys, Forall2 displays ys M /\
        jruns S os [Elem tag m l (T ++ done' ++ xs)] [Elem tag m l (T ++ done' ++ ys)]).
Proof.
  induction 1 as [done|done c cs d ds Hkey Hcd Hav Hk IH|done c cs ds Hav Hnk Hk IH]; intros (mine1 & Em) Hnd Hkd Hed Hpc Hpd.
  - exists []. split; [constructor|]. exists []. split; [reflexivity|]. split; [reflexivity|].
    intros S T done' xs tag m m0 l Hm Vd Vx SS. inversion Vx; subst.
    exists []. split; constructor.
  - inversion Hed as [|? ? E1 E2]; subst. inversion Hpc as [|? ? C1 C2]; subst. inversion Hpd as [|? ? D1 D2]; subst. inversion Hkd as [|? ? K1 K2]; subst.
    destruct (E1 c Hcd C1 D1) as (os1 & Ho1 & R1).
    destruct IH as (M & HM & os2 & Ho2 & Hu & R2); auto. { exists (mine1 ++ [c]). now rewrite <- app_assoc. }
    exists (d :: M). split; [now constructor|]. exists (os1 ++ os2).
    unfold is_keyed in K1. destruct (el_key d) as [key|] eqn:Ekd; [|discriminate].
    pose proof (locate_here mine1 c cs key Hkey Hnd) as Hl.
    split. { cbn [pair_ops]. rewrite Ekd, Hl. cbn [cat_ops]. now rewrite Ho1, Ho2. }
    split. { intros i. cbn [unpaired]. rewrite Ekd, Hl. apply Hu. }
    intros S T done' xs tag m m0 l Hm Vd Vx SS. inversion Vx as [|x ? xs' ? V1 V2]; subst.
    destruct (R1 x V1) as (y & Vy & Ry).
    destruct (R2 S T (done' ++ [y]) xs' tag m m0 l Hm) as (ys & Vys & Rys); auto.
    { now apply forall2_app_one. }
    { intros i Hi. apply SS. rewrite !ids_of_cons, !in_app_iff. tauto. }
    exists (y :: ys). split; [now constructor|]. eapply jruns_app.
    + rewrite app_assoc. change (x :: xs') with ([x] ++ xs'). eapply jruns_lift; [exact Ry| |].
      * intros i Hi. eapply outside_avoid; eauto. apply in_or_app. exact Hi.
      * intros i Hi. cbn beta in Hi. apply SS. rewrite !ids_of_cons, !in_app_iff. destruct Hi as [Hi|Hi]; [tauto|]. apply created_incl_ids in Hi. tauto.
    + rewrite <- !app_assoc in Rys. rewrite <- ?app_assoc. exact Rys.
  - inversion Hpc as [|? ? C1 C2]; subst.
    destruct IH as (M & HM & os2 & Ho2 & Hu & R2); auto. { exists (mine1 ++ [c]). now rewrite <- app_assoc. }
    exists (c :: M). split; [now constructor|]. exists os2. split; [exact Ho2|]. split; [exact Hu|].
    intros S T done' xs tag m m0 l Hm Vd Vx SS. inversion Vx as [|x ? xs' ? V1 V2]; subst.
    destruct (R2 S T (done' ++ [x]) xs' tag m m0 l Hm) as (ys & Vys & Rys); auto.
    { now apply forall2_app_one. }
    { intros i Hi. apply SS. rewrite !ids_of_cons, !in_app_iff. tauto. }
    exists (x :: ys). split; [now constructor|]. rewrite <- !app_assoc in Rys. exact Rys.
Qed.

(** Deleting the doomed children from the mixed list. *)
Lemma jkeyed_drops all r done cs ds : keyed_safe bsafe r done cs ds ->
  forall M mine1, mixed M cs ds -> Forall (fun c => is_keyed c = true) cs ->
  NoDup (map el_key (mine1 ++ cs)) -> (exists ds1, all = ds1 ++ ds /\ forall k, In k (map el_key ds1) -> In k (map el_key mine1)) ->
  forall (S : N -> Prop) T done1 done' xs tag m m0 l, outside r m m0 T ->
    (forall i, In i (ids_of done1) -> In i (ids_of done)) ->
    Forall2 displays done' done1 -> Forall2 displays xs M -> S r -> (forall i, In i (ids_of cs) -> S i) ->
    exists ys, Forall2 displays ys ds /\
      jruns S (keyed_deletes cs all) [Elem tag m l (T ++ done' ++ xs)] [Elem tag m l (T ++ done' ++ ys)].
Proof.
  induction 1 as [done|done c cs d ds Hkey Hcd Hav Hk IH|done c cs ds Hav Hnk Hk IH];
    intros M mine1 HM Hkc Hnd (ds1 & Ea & Hsub) S T done1 done' xs tag m m0 l Hm Hincl Vd Vx Sr SS.
  - inversion HM; subst. inversion Vx; subst. exists []. split; constructor.
  - inversion Hkc as [|? ? K1 K2]; subst. unfold is_keyed in K1. destruct (el_key c) as [key|] eqn:Ek; [|discriminate].
    inversion HM as [|? ? ? ? M' Hk2 HM' |? ? ? M' Hn HM']; subst.
    2: { exfalso. apply Hn. left. congruence. }
    inversion Vx as [|x ? xs' ? V1 V2]; subst.
    destruct (IH M' (mine1 ++ [c]) HM' K2) with (S := S) (T := T) (done1 := done1 ++ [d]) (done' := done' ++ [x]) (xs := xs') (tag := tag) (m := m) (m0 := m0) (l := l) as (ys & Vy & Ry); auto.
    { now rewrite <- app_assoc. }
    { exists (ds1 ++ [d]). split; [now rewrite <- app_assoc|]. intros q. rewrite !map_app, !in_app_iff. cbn [map]. intros [H|[H|[]]]; [left; auto|right; left; congruence]. }
    { intros i. rewrite !ids_of_app, !in_app_iff. intros [H|H]; auto. }
    { now apply forall2_app_one. }
    { intros i Hi. apply SS. rewrite !ids_of_cons, !in_app_iff. tauto. }
    exists (x :: ys). split; [now constructor|].
    unfold keyed_deletes. cbn [flat_map]. rewrite Ek.
    destruct (locate key (ds1 ++ d :: ds)) eqn:El.
    + cbn [app]. rewrite <- !app_assoc in Ry. exact Ry.
    + exfalso. apply locate_none in El. apply El. rewrite map_app, in_app_iff. right. left. congruence.
  - inversion Hkc as [|? ? K1 K2]; subst. unfold is_keyed in K1. destruct (el_key c) as [key|] eqn:Ek; [|discriminate].
    inversion HM as [|? d ? ds' M' Hk2 HM' |? ? ? M' Hn HM']; subst.
    { exfalso. apply Hnk. left. congruence. }
    inversion Vx as [|x ? xs' ? V1 V2]; subst.
    destruct (IH M' (mine1 ++ [c]) HM' K2) with (S := S) (T := T) (done1 := done1) (done' := done') (xs := xs') (tag := tag) (m := m) (m0 := m0) (l := l) as (ys & Vy & Ry); auto.
    { now rewrite <- app_assoc. }
    { exists ds1. split; [reflexivity|]. intros q Hq. rewrite map_app, in_app_iff. left. auto. }
    { intros i Hi. rewrite ids_of_app. apply in_or_app. left. auto. }
    { intros i Hi. apply SS. rewrite ids_of_cons, in_app_iff. tauto. }
    exists ys. split; [exact Vy|].
    unfold keyed_deletes. cbn [flat_map]. rewrite Ek.
    assert (locate key (ds1 ++ ds) = None) as ->.
    { apply locate_none. rewrite map_app, in_app_iff. intros [H|H]; [|tauto]. apply Hsub in H.
      rewrite map_app in Hnd. apply nodup_app_iff in Hnd as (_ & _ & Hnd). apply (Hnd _ H). left. exact Ek. }
    eapply jruns_app; [|exact Ry].
    destruct (Hav (el_id c)) as [A1 A2]; [now left|].
    rewrite !app_assoc. eapply jdelete_runs; [apply Hm|exact V1|exact A1| |].
    + destruct Hm as [_ HT]. rewrite flat_map_app, HT. cbn [app]. rewrite (displays_nids_list _ _ Vd), in_map_dec. auto.
    + apply SS. rewrite ids_of_cons. apply in_or_app. left. apply in_ids_root.
Qed.

Lemma jkeyed_runs r cs ds : keyed_safe bsafe r [] cs ds ->
  forallb is_keyed cs = true -> forallb is_keyed ds = true -> NoDup (map el_key cs) ->
  Forall jedits_when ds -> Forall tidy cs -> Forall tidy ds ->
  exists os, keyed_kids cs ds = Some os /\
    forall (S : N -> Prop) T xs tag m m0 l, outside r m m0 T ->
      Forall2 displays xs cs -> S r -> (forall i, In i (ids_of cs) \/ In i (ids_of ds) -> S i) ->
      exists ys, Forall2 displays ys ds /\ jruns S os [Elem tag m l (T ++ xs)] [Elem tag m l (T ++ ys)].
Proof.
  intros Hk K1 K2 Hnd Hed Hpc Hpd. rewrite forallb_forall in K1, K2. rewrite <- Forall_forall in K1, K2.
  destruct (jkeyed_pairs cs r [] cs ds Hk) as (M & HM & os & Ho & Hu & R); auto. { now exists []. }
  exists (os ++ keyed_deletes cs ds). split.
  { unfold keyed_kids. rewrite (Hu 0). cbn [length map cat_ops]. rewrite Ho. cbn [app]. now rewrite app_nil_r. }
  intros S T xs tag m m0 l Hm Vx Sr SS.
  destruct (R S T [] xs tag m m0 l Hm) as (ys & Vy & R1); auto.
  destruct (jkeyed_drops ds r [] cs ds Hk M [] HM K1) with (S := S) (T := T) (done1 := @nil element) (done' := @nil node) (xs := ys) (tag := tag) (m := m) (m0 := m0) (l := l) as (zs & Vz & R2); auto.
  { exists []. split; [reflexivity|]. intros ? []. }
  exists zs. split; [exact Vz|]. eapply jruns_app; [exact R1|exact R2].
Qed.

(* ------------------------------------------------------------------ *)
(** ** The whole tree *)

Lemma text_nids t : flat_map nids (text_nodes t) = [].
Proof. now destruct t. Qed.

Theorem bsafe_edits b : jedits_when b.
Proof.
  induction b as [bi bn ba bl bc bt bk IH] using element_ind2. set (b := Element bi bn ba bl bc bt bk) in *.
  intros a Hs Ga Gb. pose proof (tidy_kids _ Ga) as Ca. pose proof (tidy_kids _ Gb) as Cb.
  destruct Ga as [Wa0 Cla]. destruct Gb as [Wb0 Clb]. pose proof (every_root _ _ Wa0) as Wa. pose proof (every_root _ _ Wb0) as Wb.
  assert (browser_pair a b /\ (el_id a = el_id b \/ (el_name a = el_name b /\ el_listeners a = el_listeners b)) /\
    exists kos, (if all_keyed a && all_keyed b then keyed_kids (el_children a) (el_children b)
     else plain_kids (el_id a) (el_children a) (el_children b)) = Some kos /\
    forall (S : N -> Prop) T xs tag m m0 l, outside (el_id a) m m0 T ->
      Forall2 displays xs (el_children a) -> S (el_id a) -> (forall i, In i (ids_of (el_children a)) \/ In i (created b a) -> S i) ->
      exists ys, Forall2 displays ys (el_children b) /\ jruns S kos [Elem tag m l (T ++ xs)] [Elem tag m l (T ++ ys)]) as (Hbp & Hid & kos & Hk & Rk).
  { inversion Hs as [? ? Hbp Hid Hkey Hdel Hkids|? ? Hbp Hid Ka Kb Na Nb Hkids]; subst; (split; [exact Hbp|split; [exact Hid|]]).
    - destruct (all_keyed a && all_keyed b) eqn:E.
      + destruct (Hkey eq_refl) as [E1 E2]. rewrite E1, E2 in *. exists []. split; [reflexivity|]. intros S T xs tag m m0 l Hm Vx Sr SS. inversion Vx; subst.
        exists []. split; constructor.
      + rewrite created_eq, E. now apply jplain_runs.
    - rewrite created_eq, Ka, Kb. cbn [andb]. now apply jkeyed_runs. }
  exists (diff_own a b ++ kos ++ diff_id a b). split.
  { rewrite diff_to_eq, Hk. cbn [cat_ops]. now rewrite app_nil_r. }
  intros x Vx. set (S := fun i => In i (ids a) \/ In i (created b a)).
  assert (S (el_id a)) as Sr by (left; apply in_ids_root).
  assert (exists m xs, amap (el_id a) m (el_attrs a) /\ Forall2 displays xs (el_children a) /\
    x = Elem (el_name a) m (lmap (el_listeners a)) (text_nodes (text_of (el_text a)) ++ xs)) as (m & xs & Hm & Hxs & ->).
  { inversion Vx as [? ? ? ? ? ? ? m xs H1 H2 H3]; subst. exists m, xs. split; [now split|]. split; [exact H3|reflexivity]. }
  destruct (own_jruns reparse S a b m xs reparse_std Wa Wb Cla Clb Hbp Hid Sr Hm Hxs) as (m' & xs' & Hm' & Hxs' & R1).
  destruct (Rk S (text_nodes (text_of (el_text b))) xs' (el_name b) m' (el_attrs b) (lmap (el_listeners b))) as (ys & Vy & R2); auto.
  { split; [exact Hm'|apply text_nids]. }
  { intros i [Hi|Hi]; [left|now right]. destruct a; cbn. now right. }
  assert (exists m2, amap (el_id b) m2 (el_attrs b) /\
     jruns S (diff_id a b) [Elem (el_name b) m' (lmap (el_listeners b)) (text_nodes (text_of (el_text b)) ++ ys)]
                           [Elem (el_name b) m2 (lmap (el_listeners b)) (text_nodes (text_of (el_text b)) ++ ys)]) as (m2 & Hm2 & R3).
  { unfold diff_id. destruct (N.eqb_spec (el_id a) (el_id b)) as [E|E].
    - exists m'. rewrite <- E. split; [exact Hm'|constructor].
    - exists (insert attr_id (dec (el_id b)) m'). split.
      + destruct Hm' as [M1 M2]. split; [rewrite get_insert, str_eqb_refl; reflexivity|]. intros q Hq. rewrite get_insert.
        destruct (str_eqb q attr_id) eqn:Eq; [apply str_eqb_eq in Eq; congruence|now apply M2].
      + eapply jr_own; [intros doc; apply exec_id|exact Sr|eapply amap_id; exact Hm'|reflexivity|constructor]. }
  exists (Elem (el_name b) m2 (lmap (el_listeners b)) (text_nodes (text_of (el_text b)) ++ ys)). split.
  { destruct Hm2 as [M1 M2]. unfold b in *. now constructor. }
  eapply jruns_app; [exact R1|]. eapply jruns_app; [exact R2|exact R3].
Qed.

(** Updates. *)
Theorem browser_updates_cut a b : safe_with browser_pair a b -> tidy a -> tidy b ->
  exists os, diff a (Some b) = Some os /\
    forall x, displays x a -> exists y, displays y b /\ on_message reparse (wire os) [x] = ([y], true).
Proof.
  intros Hs Ga Gb. destruct (bsafe_edits b a Hs Ga Gb) as (os & Ho & R). exists os. split; [exact Ho|].
  intros x Vx. destruct (R x Vx) as (y & Vy & Ry). exists y. split; [exact Vy|]. unfold on_message. rewrite read_wire. now apply jruns_run in Ry.
Qed.

(** The first paint. *)
Theorem browser_first_paint_cut a : tidy a -> NoDup (ids a) ->
  exists os, diff a None = Some os /\
    exists y, displays y a /\ on_message reparse (wire os) [] = ([y], true).
Proof.
  intros [W C] Hnd. exists (create_from_scratch a None). split; [reflexivity|].
  destruct a as [i nm at_ ls cs tx ky].
  destruct (fill_runs reparse i nm at_ ls cs tx ky (fun _ => True)) as (d' & V & R); auto.
  { apply Forall_forall. intros d _. apply jcreate_runs. }
  exists d'. split; [exact V|]. unfold on_message. rewrite read_wire.
  pose proof (every_root _ _ C) as (CN & _). cbn [el_name] in CN.
  assert (create_from_scratch (Element i nm at_ ls cs tx ky) None =
    Op (dec i) (CreateTag nm None) :: (map (Op (dec i)) (map (fun kv => SetAttribute (fst kv) (snd kv)) at_ ++ map (fun x => AttachListener (l_name x) (l_event x)) ls
                    ++ match tx with Some v => [SetText v] | None => [] end)
           ++ flat_map (fun c => create_from_scratch c (Some (dec i))) cs)) as -> by apply create_eq.
  cbn [map js_run]. rewrite exec_create_root by exact CN. cbn [app]. now apply jruns_run in R.
Qed.
End Browser2.

(* ------------------------------------------------------------------ *)
(** ** Without "+" *)

Definition good (e : element) : Prop := every (fun e => hm_wf (el_attrs e)) e /\ clean e.
Lemma clean_neat e : clean e -> neat e.
Proof.
  induction e as [i nm a l cs t k IH] using element_ind2. intros C. pose proof (every_root _ _ C) as (H1 & H2 & H3). pose proof (every_children _ _ C) as Cc.
  constructor.
  - split; [exact H1|]. split; [eapply Forall_impl; [|exact H2]; cbn; tauto|eapply Forall_impl; [|exact H3]; cbn; tauto].
  - cbn [el_children] in *. rewrite Forall_forall in *. intros c Hc. apply (IH c Hc). now apply Cc.
Qed.
Lemma clean_cut e : clean e -> forall n, displays n e <-> shows n e.
Proof.
  induction e as [i nm a l cs t k IH] using element_ind2. intros C n. pose proof (every_root _ _ C) as (_ & H2 & H3). pose proof (every_children _ _ C) as Cc.
  cbn [el_attrs el_listeners el_children] in *.
  assert (forall q, option_map cut (get q a) = get q a) as Ea.
  { intros q. destruct (get q a) as [v|] eqn:E; [|reflexivity]. cbn [option_map]. f_equal. apply cut_free. apply get_some_in in E. rewrite Forall_forall in H2. apply H2 in E. cbn in E. tauto. }
  assert (map (fun x => (cut (l_event x), l_name x)) l = map (fun x => (l_event x, l_name x)) l) as El.
  { apply map_ext_in. intros x Hx. rewrite Forall_forall in H3. apply H3 in Hx as [_ Hx]. now rewrite cut_free. }
  assert (forall kids, Forall2 displays kids cs <-> Forall2 shows kids cs) as Ek.
  { intros kids. clear -IH Cc. revert kids. induction IH as [|c cs Hc _ IHcs]; intros kids; [split; intros H; inversion H; constructor|].
    inversion Cc; subst. split; intros H; inversion H; subst; constructor; try (now apply Hc); now apply IHcs. }
  split; intros H; inversion H as [? ? ? ? ? ? ? m kids G1 G2 G3]; subst.
  - rewrite El. constructor; [exact G1| |now apply Ek]. intros q Hq. now rewrite G2, Ea.
  - rewrite <- El. constructor; [exact G1| |now apply Ek]. intros q Hq. now rewrite G2, Ea.
Qed.
Theorem browser_updates reparse (Hr : InnerHtml.standard reparse) a b : safe_with browser_pair a b -> good a -> good b ->
  exists os, diff a (Some b) = Some os /\
    forall x, shows x a -> exists y, shows y b /\ on_message reparse (wire os) [x] = ([y], true).
Proof.
  intros Hs [Wa Ca] [Wb Cb]. destruct (browser_updates_cut reparse Hr a b Hs (conj Wa (clean_neat a Ca)) (conj Wb (clean_neat b Cb))) as (os & Ho & H).
  exists os. split; [exact Ho|]. intros x V. apply (clean_cut a Ca) in V. destruct (H x V) as (y & Vy & R). exists y. split; [now apply (clean_cut b Cb)|exact R].
Qed.
Theorem browser_first_paint reparse a : good a -> NoDup (ids a) ->
  exists os, diff a None = Some os /\
    exists y, shows y a /\ on_message reparse (wire os) [] = ([y], true).
Proof.
  intros [W C] Hn. destruct (browser_first_paint_cut reparse a (conj W (clean_neat a C)) Hn) as (os & Ho & y & V & R).
  exists os. split; [exact Ho|]. exists y. split; [now apply (clean_cut a C)|exact R].
Qed.

(* ------------------------------------------------------------------ *)
(** ** Changesets of trees without "+" are transported faithfully *)

Definition wsafe (o : op) : Prop := wire_safe (op_instr o).
Lemma cat_forall (P : op -> Prop) l os : Forall (fun x => forall o, x = Some o -> Forall P o) l -> cat_ops l = Some os -> Forall P os.
Proof.
  intros H. revert os. induction H as [|x l Hx _ IH]; intros os; cbn [cat_ops]; [intros [= <-]; constructor|].
  destruct x as [o|]; [|discriminate]. destruct (cat_ops l) as [o'|]; [|discriminate]. intros [= <-]. apply Forall_app. split; [now apply Hx|now apply IH].
Qed.
Lemma wsafe_create d : plus_free_tree d -> forall p, match p with Some p => plus_free p | None => True end -> Forall wsafe (create_from_scratch d p).
Proof.
  induction d as [i nm at_ ls cs tx ky IH] using element_ind2. intros H p Hp. rewrite create_eq.
  pose proof (every_root _ _ H) as (H1 & H2 & H3). pose proof (every_children _ _ H) as Hc. cbn [el_name el_attrs el_listeners el_children] in *.
  constructor; [now split|]. apply Forall_app. split.
  - rewrite Forall_map, Forall_app, Forall_app, !Forall_map. split; [exact H2|]. split; [exact H3|]. destruct tx; repeat constructor.
  - clear H. induction IH as [|c cs Hx _ IHcs]; cbn [flat_map]; [constructor|]. inversion Hc; subst. apply Forall_app. split; [|auto].
    apply Hx; [assumption|]. apply dec_plus_free.
Qed.
Lemma wsafe_own a b : plus_free_tree b -> Forall wsafe (diff_own a b).
Proof.
  intros H. pose proof (every_root _ _ H) as (H1 & H2 & H3). unfold diff_own. rewrite !Forall_app. split; [|split; [|split]].
  - unfold diff_name. destruct (str_eqb _ _); repeat constructor.
  - apply Forall_forall. intros o Ho. apply in_diff_attributes in Ho as [(k & -> & _)|(k & v & -> & Hk)]; [exact I|].
    rewrite Forall_forall in H2. exact (H2 _ Hk).
  - unfold diff_text. destruct (text_eqb _ _); [constructor|]. destruct (el_text b); repeat constructor.
  - unfold diff_listeners. destruct (listeners_eqb _ _); [constructor|]. constructor; [exact I|]. unfold generate_listeners. rewrite Forall_map. exact H3.
Qed.
Lemma wsafe_diff b : plus_free_tree b -> forall a os, diff a (Some b) = Some os -> Forall wsafe os.
Proof.
  unfold diff. induction b as [bi bn ba bl bc bt bk IH] using element_ind2. intros H a os. set (b := Element bi bn ba bl bc bt bk) in *.
  pose proof (every_children _ _ H) as Hc. change (el_children b) with bc in *.
  rewrite diff_to_eq. apply cat_forall. constructor; [intros o [= <-]; now apply wsafe_own|]. constructor.
  2: { constructor; [|constructor]. intros o [= <-]. unfold diff_id. destruct (N.eqb _ _); repeat constructor. }
  change (el_children b) with bc. destruct (all_keyed a && all_keyed b) eqn:E.
  - intros o. unfold keyed_kids. apply cat_forall. constructor; [|constructor; [|constructor; [|constructor]]].
    + intros o2. apply cat_forall. clear H E. induction IH as [|d ds Hd _ IHds]; [constructor|]. inversion Hc; subst. cbn [pair_ops].
      destruct (el_key d) as [k|]; [|auto]. destruct (locate k (el_children a)); [|auto]. constructor; [intros o3; now apply Hd|auto].
    + intros o2. apply cat_forall. rewrite Forall_map. apply Forall_forall. intros n _ o3. unfold keyed_insert.
      destruct (nth_error bc n); [|discriminate]. destruct (Nat.eqb n 0); [destruct (nth_error bc 1); [|discriminate]; intros [= <-]; repeat constructor|].
      destruct (Nat.eqb n _); [intros [= <-]; repeat constructor|]. destruct (nth_error bc (n - 1)); [|discriminate]. intros [= <-]. repeat constructor.
    + intros o2 [= <-]. unfold keyed_deletes. apply Forall_flat_map, Forall_forall. intros c _. destruct (el_key c); [|constructor]. destruct (locate _ _); repeat constructor.
  - intros o. unfold plain_kids. apply cat_forall. constructor; [|constructor; [|constructor; [|constructor]]].
    + intros o2 [= <-]. rewrite Forall_map. apply Forall_forall. intros c _. exact I.
    + intros o2. apply cat_forall. clear H E. generalize (el_children a) as cs.
      induction IH as [|d ds Hd _ IHds]; intros [|c cs]; try constructor; inversion Hc; subst.
      * intros o3. now apply Hd.
      * now apply IHds.
    + intros o2 [= <-]. apply Forall_flat_map. apply (forall_skipn _ (length (el_children a))) in Hc. eapply Forall_impl; [|exact Hc].
      intros d Hd. apply wsafe_create; [exact Hd|]. apply dec_plus_free.
Qed.
Lemma wire_ok os : Forall wsafe os -> exists js, read_message (wire os) = Some js /\
  Forall2 (fun o j => js_el j = op_id o /\ js_ty j = op_ty (op_instr o) /\ received j = arguments (op_instr o)) os js.
Proof.
  intros H. exists (map js_op os). split; [apply read_wire|]. induction H as [|o os Ho _ IH]; [constructor|]. cbn [map]. constructor; [|exact IH].
  split; [reflexivity|]. split; [reflexivity|]. now apply received_ok.
Qed.
