(** Proofs about the chat server. *)
From Verif Require Import Base HMap Num DomModel ComponentModel ComponentSpec ChatModel ChatSpec.
From Coq Require Import Lia Permutation.

Section NMapLemmas.
Context {V : Type}.
Implicit Types m : nmap V.
Lemma nget_insert k k' v m : nget k (ninsert k' v m) = if N.eqb k k' then Some v else nget k m.
Proof.
  induction m as [|[k1 v1] m IH]; cbn [ninsert nget]; [reflexivity|]. destruct (N.eqb_spec k' k1) as [->|Hn]; cbn [nget].
  - destruct (N.eqb_spec k k1); reflexivity.
  - rewrite IH. destruct (N.eqb_spec k k1) as [->|]; [|reflexivity]. destruct (N.eqb_spec k1 k'); congruence.
Qed.
Lemma nget_remove k k' m : nget k (nremove k' m) = if N.eqb k k' then None else nget k m.
Proof.
  induction m as [|[k1 v1] m IH]; cbn [nremove filter nget fst]; [now destruct (N.eqb k k')|]. destruct (N.eqb_spec k' k1) as [->|Hn]; cbn [negb].
  - fold (nremove k1 m). rewrite IH. destruct (N.eqb_spec k k1); reflexivity.
  - cbn [nget]. fold (nremove k' m). rewrite IH. destruct (N.eqb_spec k k1) as [->|]; [|reflexivity]. destruct (N.eqb_spec k1 k'); congruence.
Qed.
Lemma nget_in k v m : nget k m = Some v -> In (k, v) m.
Proof.
  induction m as [|[k1 v1] m IH]; cbn [nget]; [discriminate|]. destruct (N.eqb_spec k k1) as [->|]; intros H; [injection H as ->; now left|]. right. auto.
Qed.
Lemma in_nget k v m : NoDup (map fst m) -> In (k, v) m -> nget k m = Some v.
Proof.
  induction m as [|[k1 v1] m IH]; cbn [nget map fst]; intros N []; inversion N as [|? ? N1 N2]; subst.
  - injection H as -> ->. now rewrite N.eqb_refl.
  - destruct (N.eqb_spec k k1) as [->|]; [|auto]. exfalso. apply N1. now apply (in_map fst) in H.
Qed.
Lemma nget_none k m : nget k m = None <-> ~ In k (map fst m).
Proof.
  induction m as [|[k1 v1] m IH]; cbn [nget map fst In]; [tauto|]. destruct (N.eqb_spec k k1) as [->|]; [split; [discriminate|]; tauto|].
  rewrite IH. intuition congruence.
Qed.
Lemma ninsert_keys k v m : In k (map fst m) -> map fst (ninsert k v m) = map fst m.
Proof.
  induction m as [|[k1 v1] m IH]; cbn [ninsert map fst In]; [tauto|]. destruct (N.eqb_spec k k1) as [->|Hn]; [reflexivity|]. intros [H|H]; [congruence|].
  cbn [map fst]. now rewrite IH.
Qed.
Lemma ninsert_new k v m : ~ In k (map fst m) -> ninsert k v m = m ++ [(k, v)].
Proof.
  induction m as [|[k1 v1] m IH]; cbn [ninsert map fst In app]; [reflexivity|]. intros H. destruct (N.eqb_spec k k1) as [->|Hn]; [tauto|]. rewrite IH; tauto.
Qed.
Lemma nremove_nodup k m : NoDup (map fst m) -> NoDup (map fst (nremove k m)).
Proof.
  induction m as [|[k1 v1] m IH]; cbn [nremove filter map fst]; [easy|]. intros N. inversion N as [|? ? N1 N2]; subst. fold (nremove k m).
  destruct (negb (N.eqb k k1)); [|auto]. cbn [map fst]. constructor; [|auto]. intros Hi. apply N1. apply in_map_iff in Hi as (x & <- & Hx).
  apply filter_In in Hx as [Hx _]. now apply in_map.
Qed.
Lemma nodup_snoc (l : list N) x : NoDup l -> ~ In x l -> NoDup (l ++ [x]).
Proof.
  intros H Hx. apply (Permutation_NoDup (l := x :: l)); [|now constructor]. apply Permutation_cons_append.
Qed.
Lemma ninsert_nodup k v m : NoDup (map fst m) -> NoDup (map fst (ninsert k v m)).
Proof.
  intros N. destruct (in_dec N.eq_dec k (map fst m)) as [H|H].
  - now rewrite ninsert_keys.
  - rewrite ninsert_new by exact H. rewrite map_app. now apply nodup_snoc.
Qed.
End NMapLemmas.

(** The id generator. *)
Definition ginv (g : id_creator) : Prop :=
  NoDup (in_use g) /\ NoDup (recycle g) /\ (forall i, In i (in_use g) -> ~ In i (recycle g)) /\
  (forall i, In i (in_use g) \/ In i (recycle g) -> (i < head g)%N) /\
  N.of_nat (length (in_use g) + length (recycle g)) = head g.
Lemma filter_length_nodup (l : list N) x : NoDup l -> In x l -> S (length (filter (fun j => negb (N.eqb x j)) l)) = length l.
Proof.
  induction l as [|y l IH]; intros N []; inversion N as [|? ? N1 N2]; subst; cbn [filter length].
  - rewrite N.eqb_refl. cbn [negb]. f_equal. clear -N1. induction l as [|z l IH]; [reflexivity|]. cbn [filter length]. destruct (N.eqb_spec x z) as [->|]; cbn [negb length].
    + exfalso. apply N1. now left.
    + f_equal. apply IH. intros H. apply N1. now right.
  - destruct (N.eqb_spec x y) as [->|]; cbn [negb length]; [exfalso; auto|]. now rewrite IH.
Qed.
Lemma get_id_inv g id g' : ginv g -> get_id g = Some (id, g') ->
  ginv g' /\ ~ In id (in_use g) /\ in_use g' = id :: in_use g.
Proof.
  intros (N1 & N2 & Hd & Hh & Hl) E. unfold get_id in E. destruct (recycle g) as [|i r] eqn:Er.
  - destruct (N.ltb_spec (head g) u64_max); [|discriminate]. injection E as <- <-.
    assert (~ In (head g) (in_use g)) as Hn by (intros Hi; specialize (Hh _ (or_introl Hi)); lia).
    split; [|split; [exact Hn|reflexivity]]. unfold ginv. cbn [in_use recycle head]. split; [now constructor|]. split; [constructor|]. split; [intros i _ []|]. split.
    + intros i [[<-|Hi]|[]]; [lia|]. specialize (Hh _ (or_introl Hi)). lia.
    + cbn [length] in *. lia.
  - injection E as <- <-. inversion N2 as [|? ? N3 N4]; subst.
    assert (~ In i (in_use g)) as Hn by (intros Hi; apply (Hd _ Hi); now left).
    split; [|split; [exact Hn|reflexivity]]. unfold ginv. cbn [in_use recycle head]. split; [now constructor|]. split; [exact N4|]. split.
    + intros j [<-|Hj]; [exact N3|]. intros Hr. apply (Hd _ Hj). now right.
    + split; [|cbn [length] in *; lia]. intros j [[<-|Hj]|Hj]; apply Hh; [right; now left|now left|right; now right].
Qed.
Lemma release_inv id g : ginv g -> ginv (release_id id g) /\ (forall i, In i (in_use (release_id id g)) <-> In i (in_use g) /\ i <> id).
Proof.
  intros (N1 & N2 & Hd & Hh & Hl). unfold release_id. destruct (existsb (N.eqb id) (in_use g)) eqn:E.
  - apply existsb_exists in E as (x & Hx & Ex). apply N.eqb_eq in Ex as <-.
    assert (forall i, In i (filter (fun j => negb (N.eqb id j)) (in_use g)) <-> In i (in_use g) /\ i <> id) as Hf.
    { intros i. rewrite filter_In. destruct (N.eqb_spec id i); cbn [negb]; intuition congruence. }
    split; [|exact Hf]. unfold ginv. cbn [in_use recycle head]. split; [now apply NoDup_filter|]. split; [constructor; [now apply Hd|exact N2]|]. split.
    + intros i Hi [<-|Hr]; [apply Hf in Hi as [_ Hi]; congruence|]. apply Hf in Hi as [Hi _]. now apply (Hd i).
    + split.
      * intros i [Hi|[<-|Hi]]; apply Hh; [left; now apply Hf in Hi|now left|now right].
      * cbn [length]. rewrite <- (filter_length_nodup _ _ N1 Hx) in Hl. lia.
  - split; [repeat split; auto|]. intros i. split; [|tauto]. intros Hi. split; [exact Hi|]. intros ->.
    assert (existsb (N.eqb id) (in_use g) = true) by (apply existsb_exists; exists id; split; [exact Hi|apply N.eqb_refl]). congruence.
Qed.

(** The server. *)
Definition sinv (s : server) : Prop :=
  ginv (id_gen s) /\ NoDup (map fst (users s)) /\ forall i, In i (map fst (users s)) <-> In i (in_use (id_gen s)).
Lemma sinv_init : sinv server_init.
Proof. repeat split; cbn; try constructor; try tauto; intros i [[]|[]]. Qed.
Lemma handle_inv s r s' res msgs : sinv s -> handle s r = Some (s', res, msgs) -> sinv s'.
Proof.
  intros (G & N & Hu) E. destruct r as [u p|id u|id t|id]; cbn [handle] in E.
  - destruct (get_id (id_gen s)) as [[id g]|] eqn:Eg; [|discriminate]. injection E as <- <- <-. destruct (get_id_inv _ _ _ G Eg) as (G' & Hn & Hi).
    split; [exact G'|]. cbn [users id_gen]. split; [now apply ninsert_nodup|]. intros i. rewrite Hi.
    rewrite ninsert_new by (now rewrite Hu). rewrite map_app, in_app_iff, Hu. cbn. tauto.
  - injection E as <- <- <-. destruct (nget id (users s)) as [[u0 p]|] eqn:Eg; [|repeat split; try apply G; auto; apply Hu].
    split; [exact G|]. cbn [users id_gen]. split; [now apply ninsert_nodup|]. intros i. rewrite ninsert_keys; [apply Hu|]. apply nget_in in Eg. now apply (in_map fst) in Eg.
  - destruct (nget id (users s)) as [[u0 p]|]; [|discriminate]. injection E as <- <- <-. repeat split; try apply G; auto; apply Hu.
  - injection E as <- <- <-. destruct (release_inv id (id_gen s) G) as [G' Hi]. split; [exact G'|]. cbn [users id_gen]. split; [now apply nremove_nodup|].
    intros i. rewrite Hi, <- Hu. unfold nremove. split.
    + intros H. apply in_map_iff in H as (x & <- & Hx). apply filter_In in Hx as [Hx Hk]. split; [now apply in_map|]. intros Ex. rewrite Ex, N.eqb_refl in Hk. discriminate.
    + intros [H Hn]. apply in_map_iff in H as (x & <- & Hx). apply in_map. apply filter_In. split; [exact Hx|]. destruct (N.eqb_spec id (fst x)); [congruence|reflexivity].
Qed.
Lemma serves_inv h s : serves h s -> sinv s.
Proof. induction 1; [apply sinv_init|]. eapply handle_inv; eauto. Qed.

Lemma handle_answer s r s' res msgs : handle s r = Some (s', res, msgs) ->
  forall id u, res = UserRegistered id u -> exists p, r = RegisterNewUser u p.
Proof.
  intros E id u ->. destruct r as [u0 p|i u0|i t|i]; cbn [handle] in E.
  - destruct (get_id _) as [[? ?]|]; [|discriminate]. injection E as _ _ -> _. now exists p.
  - discriminate.
  - destruct (nget i (users s)) as [[? ?]|]; discriminate.
  - discriminate.
Qed.
Lemma users_registered h s : serves h s -> forall id u p, nget id (users s) = Some (u, p) <-> registered h id u p.
Proof.
  induction 1 as [|h s r s' res msgs Hs IH E]; intros id u p.
  - cbn. split; [discriminate|]. intros H. inversion H as [h ? ? ? E|h ? ? ? ? ? ? E|h ? ? ? ? ? ? E]; now destruct h.
  - pose proof (serves_inv _ _ Hs) as (G & N & Hu).
    assert (forall x id u p, registered (h ++ [x]) id u p <->
      (exists u0, x = (RegisterNewUser u p, UserRegistered id u0) /\ u0 = u) \/ (exists u0 rs, registered h id u0 p /\ x = (SetUsername id u, rs)) \/ (registered h id u p /\ ~ concerns id x)) as Hreg.
    { clear. intros x id u p. split.
      - intros H. inversion H as [h0 ? ? ? E|h0 ? ? ? ? ? ? E|h0 ? ? ? ? ? ? E]; subst; apply app_inj_tail in E as [-> <-].
        + left. now exists u.
        + right. left. eauto.
        + right. right. auto.
      - intros [(u0 & -> & ->)|[(u0 & rs & H & ->)|[H1 H2]]]; [apply reg_new|eapply reg_rename; eauto|now apply reg_keep]. }
    rewrite Hreg. clear Hreg. destruct r as [u1 p1|id1 u1|id1 t1|id1]; cbn [handle] in E.
    + destruct (get_id (id_gen s)) as [[id0 g]|] eqn:Eg; [|discriminate]. injection E as <- <- <-. destruct (get_id_inv _ _ _ G Eg) as (_ & Hn & _).
      cbn [users]. rewrite nget_insert. destruct (N.eqb_spec id id0) as [->|Hne].
      * split.
        -- intros [= -> ->]. left. now exists u.
        -- intros [(u0 & Ex & ->)|[(u0 & rs & _ & [=])|[H1 H2]]]; [congruence|]. exfalso. apply H2. right. right. now exists u1.
      * rewrite IH. split.
        -- intros H. right. right. split; [exact H|]. intros [[=]|[(u0 & [=])|(u0 & [= E1 E2])]]. congruence.
        -- intros [(u0 & Ex & ->)|[(u0 & rs & _ & [=])|[H1 _]]]; [congruence|exact H1].
    + injection E as <- <- <-. destruct (N.eqb_spec id id1) as [->|Hne].
      * destruct (nget id1 (users s)) as [[u0 p0]|] eqn:Eg; cbn [users].
        -- rewrite nget_insert, N.eqb_refl. apply IH in Eg. split.
           ++ intros [= -> ->]. right. left. eauto.
           ++ intros [(u2 & [=] & _)|[(u2 & rs & H & [= -> _])|[_ H2]]].
              ** apply IH in H. apply IH in Eg. congruence.
              ** exfalso. apply H2. right. left. now exists u1.
        -- rewrite Eg. split; [discriminate|]. intros [(u2 & [=] & _)|[(u2 & rs & H & _)|[H _]]]; apply IH in H; congruence.
      * assert (nget id (users (match nget id1 (users s) with Some (_, proc) => Server (ninsert id1 (u1, proc) (users s)) (id_gen s) | None => s end)) = nget id (users s)) as ->.
        { destruct (nget id1 (users s)) as [[u0 p0]|]; [|reflexivity]. cbn [users]. rewrite nget_insert. destruct (N.eqb_spec id id1); congruence. }
        rewrite IH. split.
        -- intros H. right. right. split; [exact H|]. intros [[=]|[(u0 & [= E1 E2])|(u0 & [=])]]. congruence.
        -- intros [(u2 & [=] & _)|[(u2 & rs & H & [= E1 _ _])|[H _]]]; [congruence|exact H].
    + destruct (nget id1 (users s)) as [[u0 p0]|] eqn:Eg; [|discriminate]. injection E as <- <- <-. rewrite IH. split.
      * intros H. right. right. split; [exact H|]. intros [[=]|[(u2 & [=])|(u2 & [=])]].
      * intros [(u2 & [=] & _)|[(u2 & rs & _ & [=])|[H _]]]. exact H.
    + injection E as <- <- <-. cbn [users]. rewrite nget_remove. destruct (N.eqb_spec id id1) as [->|Hne].
      * split; [discriminate|]. intros [(u2 & [=] & _)|[(u2 & rs & _ & [=])|[_ H]]]. exfalso. apply H. now left.
      * rewrite IH. split.
        -- intros H. right. right. split; [exact H|]. intros [[= E1]|[(u0 & [=])|(u0 & [=])]]. congruence.
        -- intros [(u2 & [=] & _)|[(u2 & rs & _ & [=])|[H _]]]. exact H.
Qed.

(** C65 *)
Lemma register_fresh h s u p s' id u' msgs : serves h s -> handle s (RegisterNewUser u p) = Some (s', UserRegistered id u', msgs) ->
  (forall v q, ~ registered h id v q) /\ u' = u /\ msgs = [] /\ registered (h ++ [(RegisterNewUser u p, UserRegistered id u')]) id u p.
Proof.
  intros Hs E. pose proof (serves_inv _ _ Hs) as (G & N & Hu). pose proof (users_registered _ _ Hs) as Hr. cbn [handle] in E.
  destruct (get_id (id_gen s)) as [[id0 g]|] eqn:Eg; [|discriminate]. injection E as <- <- <- <-. destruct (get_id_inv _ _ _ G Eg) as (_ & Hn & _).
  split; [|split; [reflexivity|split; [reflexivity|constructor]]]. intros v q H. apply Hr in H. apply Hn. apply Hu. apply nget_in in H. now apply (in_map fst) in H.
Qed.
Lemma register_works h s u p : serves h s -> (forall l : list N, NoDup l -> (forall i, In i l -> exists v q, registered h i v q) -> (N.of_nat (length l) < u64_max)%N) ->
  exists s' id, handle s (RegisterNewUser u p) = Some (s', UserRegistered id u, []).
Proof.
  intros Hs Hl. pose proof (serves_inv _ _ Hs) as ((N1 & N2 & Hd & Hh & Hlen) & N & Hu). pose proof (users_registered _ _ Hs) as Hr. cbn [handle].
  destruct (get_id (id_gen s)) as [[id g]|] eqn:Eg; [now eexists _, _|]. exfalso. unfold get_id in Eg. destruct (recycle (id_gen s)); [|discriminate].
  destruct (N.ltb_spec (head (id_gen s)) u64_max); [discriminate|]. specialize (Hl _ N1). cbn [length] in Hlen.
  enough (N.of_nat (length (in_use (id_gen s))) < u64_max)%N by lia. apply Hl. intros i Hi. apply Hu in Hi. apply in_map_iff in Hi as ([j [v q]] & <- & Hi).
  exists v, q. apply Hr. cbn [fst]. now apply in_nget.
Qed.
(** C66 *)
Lemma send_reaches h s id text u p : serves h s -> registered h id u p ->
  exists others, NoDup (map fst others) /\ (forall i v q, In (i, (v, q)) others <-> registered h i v q /\ i <> id) /\
    handle s (SendMessage id text) = Some (s, ReceiveMessage (ChatMessage id u text),
      map (fun o => (snd (snd o), ReceiveMessage (ChatMessage id u text))) others).
Proof.
  intros Hs H. pose proof (serves_inv _ _ Hs) as (G & N & Hu). pose proof (users_registered _ _ Hs) as Hr.
  exists (filter (fun x => negb (N.eqb (fst x) id)) (users s)). split; [|split].
  - clear -N. induction (users s) as [|[k v] m IH]; cbn [filter map fst] in *; [constructor|]. inversion N as [|? ? N1 N2]; subst. destruct (negb (N.eqb k id)); [|auto].
    cbn [map fst]. constructor; [|auto]. intros Hi. apply N1. apply in_map_iff in Hi as (x & <- & Hx). apply filter_In in Hx as [Hx _]. now apply in_map.
  - intros i v q. rewrite filter_In. cbn [fst]. rewrite <- Hr. split.
    + intros [Hi Hn]. split; [now apply in_nget|]. intros ->. rewrite N.eqb_refl in Hn. discriminate.
    + intros [Hi Hn]. split; [now apply nget_in|]. destruct (N.eqb_spec i id); [congruence|reflexivity].
  - cbn [handle]. apply Hr in H. rewrite H. do 2 f_equal. clear. induction (users s) as [|x m IH]; [reflexivity|]. cbn [flat_map filter]. rewrite IH.
    destruct (negb (N.eqb (fst x) id)); reflexivity.
Qed.
Lemma send_unregistered h s id text : serves h s -> (forall u p, ~ registered h id u p) -> handle s (SendMessage id text) = None.
Proof.
  intros Hs H. pose proof (users_registered _ _ Hs) as Hr. cbn [handle]. destruct (nget id (users s)) as [[u p]|] eqn:E; [|reflexivity].
  exfalso. apply (H u p). now apply Hr.
Qed.
