(** The exact form of C59: proofs. *)
From Verif Require Import Base HMap Num Json DomModel DomSpec ClientModel ClientSpec InnerHtml ExactSpec CarrySpec DomProofs DomProofs2 DomProofs3 DomProofs4 DomKeyed DomLocal ExactRun ClientProofs ClientProofs2.
From Coq Require Import Lia.
Local Open Scope N_scope.

(** ** The conditions, read along the run: [f], the listeners are gone already *)
Definition text_ok (a b : element) : Prop :=
  el_text a = el_text b \/ (el_text b <> None /\ el_children a = []) \/ (el_text b = None /\ text_of (el_text a) = []).
Definition lost (f : bool) (a b : element) : bool := f || negb (listeners_eqb (el_listeners a) (el_listeners b)).
Fixpoint carry (b a : element) (f : bool) {struct b} : Prop :=
  match b with
  | Element bi bn ba bl bc bt bk =>
      (f = true \/ el_name a <> el_name b -> relisted a b) /\ text_ok a b /\
      (fix go (ds cs : list element) : Prop :=
         match ds, cs with d :: ds', c :: cs' => carry d c (lost f a b) /\ go ds' cs' | _, _ => True end) bc (el_children a)
  end.
Fixpoint carry_list (ds cs : list element) (f : bool) : Prop :=
  match ds, cs with d :: ds', c :: cs' => carry d c f /\ carry_list ds' cs' f | _, _ => True end.
Lemma carry_eq b a f : carry b a f <-> (f = true \/ el_name a <> el_name b -> relisted a b) /\ text_ok a b /\ carry_list (el_children b) (el_children a) (lost f a b).
Proof.
  destruct b as [bi bn ba bl bc bt bk]. cbn [carry el_children]. set (b := Element bi bn ba bl bc bt bk). set (g := lost f a b). clearbody g b.
  assert ((fix go (ds cs : list element) : Prop :=
         match ds, cs with d :: ds', c :: cs' => carry d c g /\ go ds' cs' | _, _ => True end) bc (el_children a) <-> carry_list bc (el_children a) g) as ->; [|reflexivity].
  generalize (el_children a). induction bc as [|d ds IH]; intros [|c cs]; cbn [carry_list]; try reflexivity. now rewrite IH.
Qed.
Lemma lost_true f a b : lost f a b = true <-> f = true \/ el_listeners a <> el_listeners b.
Proof.
  unfold lost. rewrite orb_true_iff, negb_true_iff. split; intros [H|H]; auto; right.
  - intros E. apply listeners_eqb_eq in E. congruence.
  - destruct (listeners_eqb _ _) eqn:E; [|reflexivity]. apply listeners_eqb_eq in E. contradiction.
Qed.
Lemma listeners_dec (a b : element) : el_listeners a = el_listeners b \/ el_listeners a <> el_listeners b.
Proof. destruct (listeners_eqb (el_listeners a) (el_listeners b)) eqn:E; [left; now apply listeners_eqb_eq|right; intros H; apply listeners_eqb_eq in H; congruence]. Qed.
Lemma names_dec (a b : element) : el_name a = el_name b \/ el_name a <> el_name b.
Proof. destruct (str_eqb (el_name a) (el_name b)) eqn:E; [left; now apply str_eqb_eq|right; intros H; apply str_eqb_eq in H; congruence]. Qed.
Lemma matched_iff P a b : matched P a b <-> P a b /\ matched_list P (el_children a) (el_children b).
Proof. split; [intros H; now inversion H|intros [H1 H2]; now constructor]. Qed.
Lemma carry_iff b : forall a f, carry b a f <-> matched carries a b /\ (f = true -> matched relisted a b).
Proof.
  induction b as [bi bn ba bl bc bt bk IH] using element_ind2. set (b := Element bi bn ba bl bc bt bk) in *. intros a f. rewrite carry_eq, !matched_iff.
  assert (forall g cs, carry_list bc cs g <-> matched_list carries cs bc /\ (g = true -> matched_list relisted cs bc)) as Hl.
  { clear -IH. intros g. induction IH as [|d ds Hd _ IHds]; intros [|c cs]; cbn [carry_list]; try (split; [intros _; split; [constructor|intros _; constructor]|auto]; fail).
    rewrite Hd, IHds. split.
    - intros [[H1 H2] [H3 H4]]. split; [now constructor|]. intros Hg. constructor; auto.
    - intros [H1 H2]. inversion H1; subst. split; (split; [assumption|intros Hg; specialize (H2 Hg); now inversion H2]). }
  change (el_children b) with bc. rewrite Hl, lost_true. unfold carries at 1. fold (text_ok a b). change (el_children b) with bc. split.
  - intros (H1 & H2 & H3 & H4). split; [split; [|exact H3]; split; [|split; [exact H2|]]|].
    + destruct (names_dec a b); [now left|right; auto].
    + destruct (listeners_dec a b) as [E|E]; [now left|right; apply H4; now right].
    + intros Hf. split; [apply H1; now left|apply H4; now left].
  - intros [[(H1 & H2 & H3) H4] H5]. split; [|split; [exact H2|split; [exact H4|]]].
    + intros [Hf|Hn]; [now apply H5|]. destruct H1; [contradiction|assumption].
    + intros [Hf|Hc]; [now apply H5|]. destruct H3; [contradiction|assumption].
Qed.

(** ** Pages without their listeners *)
Fixpoint strip (e : element) : element :=
  match e with Element i n a _ cs t k => Element i n a [] (map strip cs) t k end.
Definition mask (f : bool) (e : element) : element := if f then strip e else e.
Definition mask_l (f : bool) (l : list listener) : list listener := if f then [] else l.
Lemma mask_eq f i n a l cs t k : mask f (Element i n a l cs t k) = Element i n a (mask_l f l) (map (mask f) cs) t k.
Proof. destruct f; cbn; [reflexivity|]. f_equal. induction cs; cbn; [reflexivity|]. now f_equal. Qed.
Lemma strip_ids e : ids (strip e) = ids e.
Proof.
  induction e as [i n a l cs t k IH] using element_ind2. cbn. f_equal. induction IH as [|c cs Hc _ IHcs]; cbn; [reflexivity|]. now rewrite Hc, IHcs.
Qed.
Lemma mask_ids f e : ids (mask f e) = ids e.
Proof. destruct f; [apply strip_ids|reflexivity]. Qed.
Lemma mask_ids_of f l : ids_of (map (mask f) l) = ids_of l.
Proof. induction l as [|c l IH]; [reflexivity|]. cbn [map]. rewrite !ids_of_cons. now rewrite mask_ids, IH. Qed.
Lemma mask_id f e : el_id (mask f e) = el_id e.
Proof. destruct f; [|reflexivity]. now destruct e. Qed.
Lemma strip_mask f e : strip (mask f e) = mask true e.
Proof.
  destruct f; [|reflexivity]. cbn [mask]. induction e as [i n a l cs t k IH] using element_ind2. cbn. f_equal. rewrite map_map.
  induction IH as [|c cs Hc _ IHcs]; cbn; [reflexivity|]. now rewrite Hc, IHcs.
Qed.
Lemma clone_strip e : forall n, displays n e -> displays (clone n) (strip e).
Proof.
  induction e as [i nm a l cs t k IH] using element_ind2. intros n H. inversion H as [? ? ? ? ? ? ? m kids Hi Ha Hk]; subst. cbn [clone strip].
  rewrite map_app. assert (map clone (text_nodes (text_of t)) = text_nodes (text_of t)) as -> by (now destruct (text_of t)).
  change (@nil (str * str)) with (map (fun x => (cut (l_event x), l_name x)) []). constructor; auto.
  clear -IH Hk. revert kids Hk. induction IH as [|c cs Hc _ IHcs]; intros kids Hk; inversion Hk; subst; constructor; auto.
Qed.
Lemma clones_mask f cs kids : Forall2 displays kids (map (mask f) cs) -> Forall2 displays (map clone kids) (map (mask true) cs).
Proof.
  revert kids. induction cs as [|c cs IH]; intros kids H; cbn [map] in *; inversion H; subst; constructor; auto. rewrite <- (strip_mask f). now apply clone_strip.
Qed.
Lemma displays_mask f x a : displays x (mask f a) <-> exists m xs, amap (el_id a) m (el_attrs a) /\ Forall2 displays xs (map (mask f) (el_children a)) /\
    x = Elem (el_name a) m (lmap (mask_l f (el_listeners a))) (text_nodes (text_of (el_text a)) ++ xs).
Proof.
  destruct a as [i n a l cs t k]. rewrite mask_eq. cbn [el_id el_attrs el_children el_name el_listeners el_text]. split.
  - intros V. inversion V as [? ? ? ? ? ? ? m xs H1 H2 H3]; subst. exists m, xs. split; [now split|]. split; [exact H3|reflexivity].
  - intros (m & xs & [H1 H2] & H3 & ->). now constructor.
Qed.

(** ** Texts and elements *)
Definition is_elem (n : node) : Prop := match n with Elem _ _ _ _ => True | Text _ => False end.
Lemma displays_elem n e : displays n e -> is_elem n.
Proof. intros H. now inversion H. Qed.
Lemma displays_elems ns es : Forall2 displays ns es -> Forall is_elem ns.
Proof. induction 1; constructor; auto. eapply displays_elem; eauto. Qed.
Lemma text_cat s s' k1 k2 : Forall is_elem k1 -> Forall is_elem k2 -> text_nodes s ++ k1 = text_nodes s' ++ k2 -> text_nodes s = text_nodes s' /\ k1 = k2.
Proof.
  intros H1 H2. destruct s as [|c s], s' as [|c' s']; cbn [text_nodes app]; intros E; auto.
  - subst k1. inversion H1; subst. contradiction.
  - subst k2. inversion H2; subst. contradiction.
  - injection E as -> -> ->. auto.
Qed.
Lemma displays_iff i n a l cs t k m L s kids : amap i m a -> Forall is_elem kids ->
  (displays (Elem n m L (text_nodes s ++ kids)) (Element i n a l cs t k) <-> L = lmap l /\ text_nodes s = text_nodes (text_of t) /\ Forall2 displays kids cs).
Proof.
  intros [M1 M2] He. split.
  - intros H. inversion H as [? ? ? ? ? ? ? m' kids' Hi Ha Hk]; subst.
    match goal with E : text_nodes _ ++ _ = text_nodes _ ++ _ |- _ => apply text_cat in E as [E1 E2]; [|eapply displays_elems; eauto|exact He] end. subst. auto.
  - intros (-> & -> & Hk). now constructor.
Qed.
