(** Pages that grow leave the elements, and what was typed into them, where they are. *)
From Verif Require Import Base HMap Num Json DomModel DomSpec DomProofs DomProofs2 DomProofs3 DomKeyed ClientModel ClientSpec ClientProofs BrowserProofs UserModel UserProofs UserSpec.
From Coq Require Import Lia.

Definition above (p : place) (d : list vnode) : list (option str) := map (fun x => snd (fst x)) (tl (look p d)).
Lemma map_tl {A B} (f : A -> B) l : map f (tl l) = tl (map f l).
Proof. now destruct l. Qed.
Lemma above_not i p d : ~ In (Some i) (above p d) -> not_above i p d.
Proof.
  unfold above, not_above, look. rewrite <- map_tl, map_map. intros H. apply Forall_forall. intros n Hn.
  destruct n as [s|t a ty l kids]; [reflexivity|]. cbn [v_has_id]. destruct (get attr_id a) as [j|] eqn:E; [|reflexivity]. destruct (str_eqb i j) eqn:Ej; [|reflexivity].
  apply str_eqb_eq in Ej as ->. exfalso. apply H. apply in_map_iff. exists (VElem t a ty l kids). split; [exact E|exact Hn].
Qed.
Lemma run_look reparse p : p <> [] -> forall os d d' ok, Forall calm os -> (forall o v, In o os -> op_instr o = SetText v -> ~ In (Some (op_id o)) (above p d)) ->
  v_run reparse (map js_op os) d = (d', ok) -> is_place p d -> is_place p d' /\ look p d' = look p d.
Proof.
  intros Hp0. induction os as [|o os IH]; intros d d' ok Hc Ht E Hp; cbn [map v_run] in E; [injection E as <- _; auto|].
  inversion Hc as [|? ? Hc1 Hc2]; subst.
  destruct (v_exec reparse (js_op o) d) as [d1|] eqn:E1; [|injection E as <- _; auto].
  assert (is_place p d1 /\ look p d1 = look p d) as [P1 L1].
  { eapply exec_look; eauto. intros v Hv. apply above_not. apply (Ht o v); [now left|exact Hv]. }
  destruct (IH d1 d' ok Hc2) as [P2 L2]; auto; [|rewrite L2; auto].
  intros o' v Ho Hv. unfold above. rewrite L1. apply (Ht o' v); [now right|exact Hv].
Qed.

(** The elements with child elements. *)
Fixpoint parents (e : element) : list N :=
  match e with Element i _ _ _ cs _ _ => match cs with [] => [] | _ => [i] end ++ flat_map parents cs end.
Lemma grown_ind2 (P : element -> element -> Prop) :
  (forall i n a a' l l' cs cs' more t t', Forall2 grown cs cs' -> Forall2 P cs cs' -> (cs = [] \/ t = t') ->
     P (Element i n a l cs t None) (Element i n a' l' (cs' ++ more) t' None)) ->
  forall a b, grown a b -> P a b.
Proof.
  intros H. fix IH 3. intros a b [i n a0 a' l l' cs cs' more t t' F C]. apply H; [exact F| |exact C].
  revert cs cs' F C. fix IHl 3. intros cs cs' [|c d cs1 ds1 Hc F] C; constructor; [exact (IH _ _ Hc)|]. apply (IHl _ _ F).
  destruct cs1; [now left|]. right. destruct C; [discriminate|assumption].
Qed.
Lemma grown_parents a b : grown a b -> incl (parents a) (ids b).
Proof.
  revert a b. apply grown_ind2. intros i n a a' l l' cs cs' more t t' _ F _ x. cbn [parents ids]. rewrite in_app_iff, flat_map_app. intros [H|H].
  - destruct cs; [destruct H|]. destruct H as [->|[]]. now left.
  - right. apply in_or_app. left. induction F as [|c d cs1 ds1 Hc F IH]; [destruct H|]. cbn [flat_map] in *. apply in_app_or in H as [H|H]; apply in_or_app; [left; now apply Hc|right; now apply IH].
Qed.
Lemma grown_key a b : grown a b -> el_key a = None /\ el_key b = None.
Proof. destruct 1; auto. Qed.
Lemma create_ops d : neat d -> forall p o, In o (create_from_scratch d p) -> calm o /\ exists x, op_id o = dec x /\ In x (ids d).
Proof.
  induction d as [i n a l cs t k IH] using element_ind2. intros Hn p o. rewrite create_eq. pose proof (every_root _ _ Hn) as (_ & Ha & _). pose proof (every_children _ _ Hn) as Hcs.
  cbn [el_attrs el_children ids] in *. intros [<-|H]; [split; [exact Logic.I|exists i; split; [reflexivity|now left]]|]. apply in_app_or in H as [H|H].
  - apply in_map_iff in H as (ins & <- & H). split; [|exists i; split; [reflexivity|now left]]. unfold calm. cbn [op_instr]. rewrite !in_app_iff in H. destruct H as [H|[H|H]].
    + apply in_map_iff in H as (kv & <- & H). rewrite Forall_forall in Ha. destruct (Ha _ H) as [[V L] Hid]. rewrite cut_free by now apply name_plus_free. now rewrite L.
    + apply in_map_iff in H as (kv & <- & _). exact Logic.I.
    + destruct t; [destruct H as [<-|[]]; exact Logic.I|destruct H].
  - apply in_flat_map in H as (c & Hc & H). rewrite Forall_forall in IH, Hcs. destruct (IH c Hc (Hcs c Hc) _ _ H) as (H1 & x & H2 & H3). split; [exact H1|].
    exists x. split; [exact H2|]. right. apply in_flat_map. eauto.
Qed.
Lemma own_ops i n a a' l l' cs ds t t' k k' o : neat (Element i n a l cs t k) -> neat (Element i n a' l' ds t' k') ->
  In o (diff_own (Element i n a l cs t k) (Element i n a' l' ds t' k')) -> calm o /\ op_id o = dec i /\ (forall v, op_instr o = SetText v -> t <> t').
Proof.
  intros N1 N2 H. pose proof (every_root _ _ N1) as (_ & A1 & _). pose proof (every_root _ _ N2) as (_ & A2 & _). cbn [el_attrs] in A1, A2. rewrite Forall_forall in A1, A2.
  assert (forall k v, In (k, v) a' -> calm (Op (dec i) (SetAttribute k v))) as HS.
  { intros q v Hq. destruct (A2 _ Hq) as [[V L] Hid]. cbn [fst] in *. unfold calm. cbn [op_instr]. rewrite cut_free by now apply name_plus_free. now rewrite L. }
  unfold diff_own in H. rewrite !in_app_iff in H. destruct H as [H|[H|[H|H]]].
  - unfold diff_name in H. cbn [el_name] in H. rewrite str_eqb_refl in H. destruct H.
  - unfold diff_attributes in H. cbn [el_attrs] in H. destruct (hm_eqb a a'); [destruct H|]. apply in_app_or in H as [H|H].
    + apply in_flat_map in H as (q & Hq & H). destruct (contains_key q a'); [destruct H|]. destruct H as [<-|[]]. split; [|split; [reflexivity|discriminate]].
      unfold calm. cbn [op_instr]. unfold keys in Hq. apply in_map_iff in Hq as (kv & <- & Hq). destruct (A1 _ Hq) as [[V L] Hid]. now rewrite L.
    + apply in_flat_map in H as ([q v] & Hq & H). cbn [fst snd] in H.
      assert (o = Op (dec i) (SetAttribute q v)) as -> by (destruct (get q a) as [m|]; [destruct (str_eqb m v); [destruct H|]|]; destruct H as [<-|[]]; reflexivity).
      split; [now apply HS|split; [reflexivity|discriminate]].
  - unfold diff_text in H. cbn [el_text] in H. destruct (text_eqb t t') eqn:E; [destruct H|].
    assert (t <> t') as Ht by (intros ->; destruct t'; cbn in E; [rewrite str_eqb_refl in E|]; discriminate).
    destruct t'; destruct H as [<-|[]]; (split; [exact Logic.I|split; [reflexivity|auto]]).
  - unfold diff_listeners in H. destruct (listeners_eqb _ _); [destruct H|]. destruct H as [<-|H]; [split; [exact Logic.I|split; [reflexivity|discriminate]]|].
    unfold generate_listeners in H. apply in_map_iff in H as (x & <- & _). split; [exact Logic.I|split; [reflexivity|discriminate]].
Qed.
Lemma nodup_flat {B} (f : element -> list B) ds : NoDup (flat_map f ds) -> forall j1 j2 d1 d2 x, nth_error ds j1 = Some d1 -> nth_error ds j2 = Some d2 -> In x (f d1) -> In x (f d2) -> j1 = j2.
Proof.
  induction ds as [|d ds IH]; intros Hn j1 j2 d1 d2 x E1 E2 H1 H2; [destruct j1; discriminate|]. cbn [flat_map] in Hn.
  assert (forall y, In y (f d) -> ~ In y (flat_map f ds)) as Hd.
  { clear -Hn. induction (f d) as [|z l IHl]; [intros y []|]. cbn [app] in Hn. inversion Hn as [|? ? Hz Hn']; subst. intros y [<-|Hy]; [intros C; apply Hz, in_or_app; now right|now apply IHl]. }
  assert (NoDup (flat_map f ds)) as Hn2. { clear -Hn. induction (f d) as [|z l IHl]; [exact Hn|]. inversion Hn; auto. }
  destruct j1 as [|j1], j2 as [|j2]; cbn [nth_error] in *.
  - reflexivity.
  - injection E1 as <-. exfalso. apply (Hd x H1). apply in_flat_map. exists d2. split; [eapply nth_error_In; eauto|exact H2].
  - injection E2 as <-. exfalso. apply (Hd x H2). apply in_flat_map. exists d1. split; [eapply nth_error_In; eauto|exact H1].
  - f_equal. eapply IH; eauto.
Qed.
Lemma zip_nth ds : forall cs os, In (Some os) (zip_ops ds cs) -> exists j c d, nth_error cs j = Some c /\ nth_error ds j = Some d /\ diff_to d c = Some os.
Proof.
  induction ds as [|d ds IH]; intros [|c cs] os H; cbn [zip_ops] in H; try (now destruct H). destruct H as [H|H]; [exists 0, c, d; auto|].
  destruct (IH _ _ H) as (j & c' & d' & ?). exists (S j), c', d'. auto.
Qed.
Lemma forall2_nth {A B} (R : A -> B -> Prop) l1 l2 : Forall2 R l1 l2 -> forall j x, nth_error l1 j = Some x -> exists y, nth_error l2 j = Some y /\ R x y.
Proof. induction 1 as [|x0 y0 l1 l2 H F IH]; intros [|j] x E; try discriminate; cbn [nth_error] in *; [injection E as <-; eauto|eauto]. Qed.
Lemma ops_grown a b : grown a b -> neat a -> neat b -> NoDup (ids b) -> forall os, diff_to b a = Some os -> forall o, In o os ->
  calm o /\ (forall v, op_instr o = SetText v -> exists x, op_id o = dec x /\ In x (ids b) /\ ~ In x (parents a)).
Proof.
  revert a b. apply (grown_ind2 (fun a b => neat a -> neat b -> NoDup (ids b) -> forall os, diff_to b a = Some os -> forall o, In o os ->
    calm o /\ (forall v, op_instr o = SetText v -> exists x, op_id o = dec x /\ In x (ids b) /\ ~ In x (parents a)))).
  intros i n a a' l l' cs cs' more t t' G F C N1 N2 Hnd os E o Ho.
  rewrite diff_to_eq in E. cbn [el_children el_id] in E. apply (cat_in _ _ _ E) in Ho as (os' & Hl & Ho). cbn [ids] in Hnd. inversion Hnd as [|? ? Hi Hnd']; subst.
  pose proof (every_children _ _ N1) as Nc. pose proof (every_children _ _ N2) as Nd. cbn [el_children] in Nc, Nd.
  assert (forall x, In x (flat_map parents cs) -> exists j c d, nth_error cs j = Some c /\ nth_error (cs' ++ more) j = Some d /\ In x (parents c) /\ In x (ids d)) as Par.
  { intros x Hx. apply in_flat_map in Hx as (c & Hc & Hx). apply In_nth_error in Hc as (j & Ej). destruct (forall2_nth _ _ _ G j c Ej) as (d & Ed & Hg).
    exists j, c, d. repeat split; auto; [rewrite nth_error_app1; [exact Ed|apply nth_error_Some; congruence]|]. now apply (grown_parents _ _ Hg). }
  assert (length cs = length cs') as Hlen by (clear -G; induction G; cbn [length]; congruence).
  destruct Hl as [Hl|[Hl|[Hl|[]]]].
  - injection Hl as <-. destruct (own_ops _ _ _ _ _ _ _ _ _ _ _ _ _ N1 N2 Ho) as (H1 & H2 & H3). split; [exact H1|]. intros v Hv. exists i. split; [exact H2|].
    split; [now left|]. destruct C as [->|C]; [|now destruct (H3 v Hv)]. intros [].
  - destruct (all_keyed _ && all_keyed _) eqn:Ek.
    + apply andb_true_iff in Ek as [Ek _]. assert (cs = []) as ->.
      { destruct cs as [|c cs]; [reflexivity|]. unfold all_keyed in Ek. cbn [el_children forallb] in Ek. apply andb_true_iff in Ek as [Ek _]. inversion G as [|? d ? ? Hg _]; subst.
        apply grown_key in Hg as [Hg _]. unfold is_keyed in Ek. now rewrite Hg in Ek. }
      unfold keyed_kids in Hl. apply (cat_in _ _ _ Hl) in Ho as (os2 & Hl2 & Ho). cbn [In] in Hl2. destruct Hl2 as [H|[H|[H|[]]]].
      * exfalso. assert (forall ds, pair_ops [] ds = []) as Hnil by (induction ds as [|d ds IH]; cbn [pair_ops locate find]; [reflexivity|]; destruct (el_key d); exact IH).
        rewrite Hnil in H. injection H as <-. destruct Ho.
      * apply (cat_in _ _ _ H) in Ho as (os3 & H3 & Ho). apply in_map_iff in H3 as (q & H3 & _). unfold keyed_insert in H3.
        destruct (nth_error _ q); [|discriminate].
        destruct (Nat.eqb q 0); [|destruct (Nat.eqb q _)]; [destruct (nth_error _ 1); [|discriminate]| |destruct (nth_error _ (q - 1)); [|discriminate]];
          injection H3 as <-; destruct Ho as [<-|[]]; (split; [exact Logic.I|discriminate]).
      * injection H as <-. destruct Ho.
    + unfold plain_kids in Hl. apply (cat_in _ _ _ Hl) in Ho as (os2 & Hl2 & Ho). cbn [In] in Hl2. destruct Hl2 as [H|[H|[H|[]]]].
      * injection H as <-. rewrite skipn_all2 in Ho by (rewrite app_length; lia). destruct Ho.
      * apply (cat_in _ _ _ H) in Ho as (os3 & H3 & Ho). apply zip_nth in H3 as (j & c & d & Ec & Ed & E3).
        assert (nth_error cs' j = Some d) as Ed' by (rewrite nth_error_app1 in Ed; [exact Ed|rewrite <- Hlen; apply nth_error_Some; congruence]).
        destruct (forall2_nth _ _ _ F j c Ec) as (d' & Ed2 & IH). rewrite Ed' in Ed2. injection Ed2 as <-.
        rewrite Forall_forall in Nc, Nd. assert (NoDup (ids d)) as Hd.
        { clear -Hnd' Ed. revert j Ed. induction (cs' ++ more) as [|x xs IHx]; intros [|j] Ed; try discriminate; cbn [flat_map nth_error] in *.
          - injection Ed as <-. clear -Hnd'. induction (ids x) as [|y ys IHy]; [constructor|]. inversion Hnd' as [|? ? Hy Hn]; subst. constructor; [intros C; apply Hy, in_or_app; now left|auto].
          - apply (IHx) with (j := j); [|exact Ed]. clear -Hnd'. induction (ids x) as [|y ys IHy]; [exact Hnd'|]. inversion Hnd'; auto. }
        destruct (IH (Nc c (nth_error_In _ _ Ec)) (Nd d (nth_error_In _ _ Ed)) Hd os3 E3 o Ho) as (H1 & H2). split; [exact H1|]. intros v Hv. destruct (H2 v Hv) as (x & X1 & X2 & X3).
        assert (In x (flat_map ids (cs' ++ more))) as Hin by (apply in_flat_map; exists d; split; [eapply nth_error_In; eauto|exact X2]).
        exists x. split; [exact X1|]. split; [now right|]. cbn [parents]. rewrite in_app_iff. intros [Hx|Hx].
        -- destruct cs; [destruct Hx|]. destruct Hx as [->|[]]. now apply Hi.
        -- apply Par in Hx as (j2 & c2 & d2 & Ec2 & Ed2 & Hp2 & Hi2). assert (j2 = j) as -> by (eapply (nodup_flat ids); eauto). rewrite Ec in Ec2. injection Ec2 as <-. now apply X3.
      * injection H as <-. apply in_flat_map in Ho as (d & Hd & Ho). assert (In d (cs' ++ more)) as Hdm by (rewrite <- (firstn_skipn (length cs) (cs' ++ more)); apply in_or_app; now right).
        rewrite Forall_forall in Nd. destruct (create_ops d (Nd d Hdm) _ _ Ho) as (H1 & x & X1 & X2). split; [exact H1|]. intros v Hv.
        assert (In x (flat_map ids (cs' ++ more))) as Hin by (apply in_flat_map; eauto).
        exists x. split; [exact X1|]. split; [now right|]. cbn [parents]. rewrite in_app_iff. intros [Hx|Hx].
        -- destruct cs; [destruct Hx|]. destruct Hx as [->|[]]. now apply Hi.
        -- apply Par in Hx as (j2 & c2 & d2 & Ec2 & Ed2 & Hp2 & Hi2).
           apply In_nth_error in Hd as (jd & Ejd). assert (nth_error (cs' ++ more) (length cs + jd) = Some d) as Ejd'.
           { rewrite <- (firstn_skipn (length cs) (cs' ++ more)). rewrite nth_error_app2; rewrite firstn_length_le by (rewrite app_length; lia); [|lia]. now replace (length cs + jd - length cs) with jd by lia. }
           assert (j2 = length cs + jd) by (eapply (nodup_flat ids); eauto). assert (j2 < length cs) by (apply nth_error_Some; congruence). lia.
  - injection Hl as <-. unfold diff_id in Ho. cbn [el_id] in Ho. rewrite N.eqb_refl in Ho. destruct Ho.
Qed.
