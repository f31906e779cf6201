(** Consequences for numbered trees, unchanged trees, keyed lists; panics; conversion from HTML. *)
From Verif Require Import Base HMap Num DomModel DomSpec DomProofs DomProofs2 DomProofs3 HtmlModel.
From Coq Require Import Lia.

(* ------------------------------------------------------------------ *)
(** ** Statement-level forms of the main theorem *)

Lemma diff_applies max a b : proper max a -> proper max b -> safe a b ->
  exists os, diff a (Some b) = Some os /\ forall x, view x a -> exists b', apply max os x = Some b' /\ view b' b.
Proof.
  intros Pa Pb Hs. destruct (safe_edits max b a Hs Pa Pb) as (os & Ho & R). exists os. split; [exact Ho|].
  intros x Vx. destruct (R x Vx) as (b' & Vb & Rb). exists b'. split; [now apply runs_apply in Rb|exact Vb].
Qed.

(* ------------------------------------------------------------------ *)
(** ** Numbered trees *)

Scheme numbered_mut := Induction for numbered Sort Prop with numbered_list_mut := Induction for numbered_list Sort Prop.
Combined Scheme numbered_both from numbered_mut, numbered_list_mut.

Lemma numbered_ranges :
  (forall i e j, numbered i e j -> (i < j)%N /\ el_id e = i /\ (forall x, In x (ids e) -> (i <= x < j)%N) /\ NoDup (ids e)) /\
  (forall i l j, numbered_list i l j -> (i <= j)%N /\ (forall x, In x (ids_of l) -> (i <= x < j)%N) /\ NoDup (ids_of l)).
Proof.
  apply numbered_both.
  - intros i n a l cs t k j _ (H1 & H2 & H3). split; [lia|]. split; [reflexivity|]. split.
    + intros x. cbn [ids]. intros [<-|Hx]; [lia|]. apply H2 in Hx. lia.
    + cbn [ids]. constructor; [|exact H3]. intros Hx. apply H2 in Hx. lia.
  - intros i. split; [lia|]. split; [intros x []|constructor].
  - intros i c cs j m _ (H1 & H2 & H3 & H4) _ (H5 & H6 & H7). split; [lia|]. rewrite ids_of_cons. split.
    + intros x Hx. apply in_app_or in Hx as [Hx|Hx]; [apply H3 in Hx|apply H6 in Hx]; lia.
    + apply nodup_app_iff. split; [exact H4|]. split; [exact H7|]. intros x Hx Hx2. apply H3 in Hx. apply H6 in Hx2. lia.
Qed.
Lemma numbered_range i e j : numbered i e j -> (i < j)%N /\ el_id e = i /\ (forall x, In x (ids e) -> (i <= x < j)%N) /\ NoDup (ids e).
Proof. apply numbered_ranges. Qed.
Lemma numbered_list_range i l j : numbered_list i l j -> (i <= j)%N /\ (forall x, In x (ids_of l) -> (i <= x < j)%N) /\ NoDup (ids_of l).
Proof. apply numbered_ranges. Qed.
Lemma numbered_list_app i l1 l2 j : numbered_list i (l1 ++ l2) j -> exists m, numbered_list i l1 m /\ numbered_list m l2 j.
Proof.
  revert i. induction l1 as [|c l1 IH]; intros i H.
  - exists i. split; [constructor|exact H].
  - cbn [app] in H. inversion H as [|? ? ? j1 ? H1 H2]; subst. destruct (IH _ H2) as (m & A & B). exists m. split; [econstructor; eauto|exact B].
Qed.

Lemma unkeyed_kids e : unkeyed e -> all_keyed e = true -> el_children e = [].
Proof.
  intros H. apply every_children in H. unfold all_keyed. destruct (el_children e) as [|c cs]; [reflexivity|].
  inversion H as [|? ? H1 _]; subst. apply every_root in H1. cbn [forallb]. unfold is_keyed. rewrite H1. discriminate.
Qed.

(** Fitting numbered trees. *)
Lemma fits_safe_with P b : forall a i j i' j', numbered i a j -> numbered i' b j' -> unkeyed a -> unkeyed b -> fits a b -> matched P a b -> safe_with P a b.
Proof.
  induction b as [bi bn ba bl bc bt bk IH] using element_ind2. intros a i j i' j' Na Nb Ua Ub Hal Hma.
  set (b := Element bi bn ba bl bc bt bk) in *. destruct a as [ai an aa al ac at_ ak].
  inversion Hma as [? ? HP Hml]; subst; clear Hma. change (el_children b) with bc in Hml. cbn [el_children] in Hml.
  assert ((bi <= ai)%N /\ (ai = bi \/ (an = bn /\ al = bl)) /\ (ai = bi \/ created b (Element ai an aa al ac at_ ak) = []) /\ fits_list ac bc) as (Hle & Hid & Hcr & Hkids).
  { inversion Hal as [? ? Hid Hk|? ? Hlt E1 E2 E3 Hk]; subst; change (el_id b) with bi in *; cbn in *; repeat split; auto; lia. }
  clear Hal. inversion Na as [? ? ? ? ? ? ? ? Nac]; subst. inversion Nb as [? ? ? ? ? ? ? ? Nbc]; subst.
  apply safe_plain; auto.
  - intros E. apply andb_true_iff in E as [E1 E2]. split; now apply unkeyed_kids.
  - change (el_children b) with bc. cbn [el_children el_id]. rewrite <- (firstn_skipn (length bc) ac) in Nac. apply numbered_list_app in Nac as (m & N1 & N2).
    apply Forall_forall. intros c Hc x [<-|[]]. apply numbered_list_range in N1 as (R1 & R2 & _). apply numbered_list_range in N2 as (_ & R3 & _).
    assert (In (el_id c) (ids_of (skipn (length bc) ac))) as Hx.
    { apply in_flat_map. exists c. split; [exact Hc|apply in_ids_root]. }
    apply R3 in Hx. split; [lia|]. intros Hy. apply R2 in Hy. lia.
  - change (el_children b) with bc. cbn [el_children el_id].
    assert (all_keyed (Element ai an aa al ac at_ ak) && all_keyed b = true -> ac = [] /\ bc = []) as Hk.
    { intros E. apply andb_true_iff in E as [E1 E2]. apply unkeyed_kids in E1, E2; auto. }
    rewrite created_eq in Hcr. change (el_children b) with bc in Hcr. cbn [el_children] in Hcr.
    assert (ai = bi \/ created_list bc ac = []) as Hcr2.
    { destruct Hcr as [H|H]; [now left|]. right. destruct (_ && _); [|exact H]. destruct (Hk eq_refl) as [-> ->]. reflexivity. }
    clear Hcr Hk.
    apply every_children in Ua, Ub. change (el_children b) with bc in Ub. cbn [el_children] in Ua.
    assert (forall ds, Forall (fun d => forall a i j i' j', numbered i a j -> numbered i' d j' -> unkeyed a -> unkeyed d -> fits a d -> matched P a d -> safe_with P a d) ds ->
      forall cs done p q p' q', numbered_list p cs q -> numbered_list p' ds q' -> fits_list cs ds -> matched_list P cs ds -> ai = bi \/ created_list ds cs = [] ->
      Forall (every (fun e => el_key e = None)) cs -> Forall (every (fun e => el_key e = None)) ds ->
      (ai < p)%N -> (bi < p')%N -> (forall x, In x (ids_of done) -> (x < p')%N) -> kids_safe (safe_with P) ai done cs ds) as G.
    { clear. intros ds H. induction H as [|d ds Hd _ IHds]; intros cs done p q p' q' Nc Nd Hal Hml Hcr Uc Ud Hp Hp' Hdone.
      - destruct cs; constructor.
      - inversion Nd as [|? ? ? j1 ? D1 D2]; subst. pose proof (numbered_range _ _ _ D1) as (R1 & R2 & R3 & R4). inversion Ud as [|? ? U1 U2]; subst.
        destruct cs as [|c cs].
        + destruct Hcr as [->|Hcr].
          2: { exfalso. cbn [created_list] in Hcr. rewrite ids_of_cons in Hcr. destruct d; discriminate. }
          apply ks_new; [exact R4| |].
          * intros x Hx. apply R3 in Hx. split; [lia|]. intros Hy. apply Hdone in Hy. lia.
          * apply (IHds [] _ p q j1 q'); auto; try lia; [constructor|constructor|].
            intros x Hx. rewrite ids_of_app, ids_of_one in Hx. apply in_app_or in Hx as [Hx|Hx]; [apply Hdone in Hx|apply R3 in Hx]; lia.
        + inversion Nc as [|? ? ? k1 ? C1 C2]; subst. inversion Uc as [|? ? V1 V2]; subst. inversion Hal as [| |? ? ? ? A1 A2]; subst. inversion Hml as [| |? ? ? ? M1 M2]; subst.
          pose proof (numbered_range _ _ _ C1) as (S1 & S2 & S3 & S4).
          assert (el_id d <= el_id c)%N as Eid by (inversion A1; lia).
          cbn [created_list] in Hcr.
          apply ks_pair.
          * eapply Hd; eauto.
          * intros x Hx. apply in_app_or in Hx as [Hx|Hx].
            -- apply S3 in Hx. split; [lia|]; intros Hy; apply Hdone in Hy; lia.
            -- destruct Hcr as [->|Hcr]; [|apply app_eq_nil in Hcr as [Hcr _]; rewrite Hcr in Hx; destruct Hx].
               apply created_incl_ids in Hx. apply R3 in Hx. split; [lia|]; intros Hy; apply Hdone in Hy; lia.
          * apply (IHds cs _ k1 q j1 q'); auto; try lia.
            -- destruct Hcr as [H|H]; [now left|]. apply app_eq_nil in H as [_ H]. now right.
            -- intros x Hx. rewrite ids_of_app, ids_of_one in Hx. apply in_app_or in Hx as [Hx|Hx]; [apply Hdone in Hx|apply R3 in Hx]; lia. }
    apply (G bc IH ac [] (ai + 1) j (bi + 1) j')%N; auto; try lia. intros x [].
Qed.

Lemma matched_true b : forall a, matched (fun _ _ => True) a b.
Proof.
  induction b as [bi bn ba bl bc bt bk IH] using element_ind2. intros a. constructor; [exact I|]. cbn [el_children].
  generalize (el_children a) as cs. induction IH as [|d ds Hd _ IHds]; intros [|c cs]; constructor; auto.
Qed.
Lemma fits_safe b a i j i' j' : numbered i a j -> numbered i' b j' -> unkeyed a -> unkeyed b -> fits a b -> safe a b.
Proof. intros. eapply fits_safe_with; eauto. apply matched_true. Qed.
Lemma safe_with_safe P b : forall a, safe_with P a b -> safe a b.
Proof.
  induction b as [bi bn ba bl bc bt bk IH] using element_ind2. intros a H.
  inversion H as [? ? _ Hid Hkey Hdel Hkids|? ? _ Hid Ka Kb Na Nb Hkids]; subst; cbn [el_children] in Hkids; [apply safe_plain|apply safe_keyed]; auto; cbn [el_children] in *.
  - clear -IH Hkids. revert Hkids. generalize (el_children a) as cs, (@nil element) as done. induction IH as [|d ds Hd _ IHds]; intros cs done Hk; inversion Hk; subst; constructor; auto.
    now apply Hd.
  - clear -IH Hkids. revert IH Hkids. generalize (el_children a) as cs, (@nil element) as done. intros cs done IH Hk. induction Hk; [constructor| |].
    + inversion IH; subst. apply kd_pair; auto. now apply H4.
    + apply kd_drop; auto.
Qed.

(* ------------------------------------------------------------------ *)
(** ** Unchanged trees *)

Lemma forall2_len {A B} (R : A -> B -> Prop) l1 l2 : Forall2 R l1 l2 -> length l1 = length l2.
Proof. induction 1; cbn; congruence. Qed.
Lemma map_nil_iff {A B} (f : A -> B) l : map f l = [] <-> l = [].
Proof. destruct l; cbn; split; congruence. Qed.
Lemma cat_some_nil l : cat_ops l = Some [] <-> Forall (fun x => x = Some []) l.
Proof.
  induction l as [|[o|] l IH]; cbn [cat_ops].
  - split; [constructor|reflexivity].
  - destruct (cat_ops l) as [o'|].
    + split.
      * intros [= H]. apply app_eq_nil in H as [-> ->]. constructor; [reflexivity|now apply IH].
      * intros H. inversion H as [|? ? H1 H2]; subst. injection H1 as ->. apply IH in H2. now injection H2 as ->.
    + split; [discriminate|]. intros H. inversion H as [|? ? H1 H2]; subst. apply IH in H2. discriminate.
  - split; [discriminate|]. intros H. inversion H. discriminate.
Qed.
Lemma create_nonempty e p : create_from_scratch e p <> [].
Proof. destruct e. rewrite create_eq. discriminate. Qed.

Lemma diff_own_nil a b : hm_wf (el_attrs a) -> hm_wf (el_attrs b) ->
  (diff_own a b = [] <-> el_name a = el_name b /\ hm_equiv (el_attrs a) (el_attrs b) /\ el_text a = el_text b /\ el_listeners a = el_listeners b).
Proof.
  intros Wa Wb. unfold diff_own.
  assert (forall {A} (x y : list A), x ++ y = [] <-> x = [] /\ y = []) as Happ.
  { intros A x y. split; [apply app_eq_nil|intros [-> ->]; reflexivity]. }
  rewrite !Happ. clear Happ.
  assert (diff_name a b = [] <-> el_name a = el_name b) as ->.
  { unfold diff_name. destruct (str_eqb (el_name a) (el_name b)) eqn:E; [apply str_eqb_eq in E; tauto|]. apply str_eqb_neq in E. split; [discriminate|tauto]. }
  assert (diff_text a b = [] <-> el_text a = el_text b) as ->.
  { unfold diff_text. destruct (text_eqb (el_text a) (el_text b)) eqn:E; [apply text_eqb_eq in E; tauto|].
    split; [destruct (el_text b); discriminate|]. intros H. apply text_eqb_eq in H. congruence. }
  assert (diff_listeners a b = [] <-> el_listeners a = el_listeners b) as ->.
  { unfold diff_listeners. destruct (listeners_eqb (el_listeners a) (el_listeners b)) eqn:E; [apply listeners_eqb_eq in E; tauto|].
    split; [discriminate|]. intros H. apply listeners_eqb_eq in H. congruence. }
  assert (diff_attributes a b = [] <-> hm_equiv (el_attrs a) (el_attrs b)) as ->.
  { destruct (diff_attributes_spec a b Wa Wb) as (l & El & Hl). split.
    - intros E. rewrite El in E. apply map_nil_iff in E as ->. destruct (Hl 0%N [] (el_attrs a) [] [] None None (hm_equiv_refl _)) as (m & Hm & He).
      cbn in Hm. now injection Hm as <-.
    - intros E. unfold diff_attributes. apply hm_eqb_equiv in E; auto. now rewrite E. }
  tauto.
Qed.

Lemma unchanged_iff b : forall max a, proper max a -> proper max b -> unkeyed a -> unkeyed b -> (diff a (Some b) = Some [] <-> view a b).
Proof.
  unfold diff. induction b as [bi bn ba bl bc bt bk IH] using element_ind2. intros max a Pa Pb Ua Ub. set (b := Element bi bn ba bl bc bt bk) in *.
  pose proof (every_root _ _ Pa) as [_ Wa]. pose proof (every_root _ _ Pb) as [_ Wb].
  pose proof (every_children _ _ Pa) as Ca. pose proof (every_children _ _ Pb) as Cb. change (el_children b) with bc in Cb.
  pose proof (every_children _ _ Ua) as Ka. pose proof (every_children _ _ Ub) as Kb. change (el_children b) with bc in Kb.
  assert ((if all_keyed a && all_keyed b then keyed_kids (el_children a) (el_children b) else plain_kids (el_id a) (el_children a) (el_children b)) = Some []
    <-> Forall2 view (el_children a) bc) as Hkids.
  { change (el_children b) with bc. destruct (all_keyed a && all_keyed b) eqn:E.
    - apply andb_true_iff in E as [E1 E2]. apply unkeyed_kids in E1, E2; auto. change (el_children b) with bc in E2. rewrite E1, E2.
      split; [constructor|reflexivity].
    - clear E. unfold plain_kids. rewrite cat_some_nil. clear -IH Ca Cb Ka Kb.
      generalize (el_id a). intros r. set (cs := el_children a) in *. clearbody cs. clear a.
      split.
      + intros H. inversion H as [|? ? H1 H']; subst. inversion H' as [|? ? H2 H'']; subst. inversion H'' as [|? ? H3 _]; subst. clear H H' H''.
        injection H1 as H1. injection H3 as H3. apply map_nil_iff in H1.
        assert (skipn (length cs) bc = []) as H3'.
        { destruct (skipn (length cs) bc) as [|d l]; [reflexivity|]. cbn [flat_map] in H3. apply app_eq_nil in H3 as [H3 _]. now apply create_nonempty in H3. }
        assert (length cs = length bc) as EL.
        { apply (f_equal (@length _)) in H1, H3'. rewrite skipn_length in H1, H3'. cbn in H1, H3'. lia. }
        clear H1 H3 H3'. apply cat_some_nil in H2. revert cs Ca Ka H2 EL.
        induction IH as [|d ds Hd _ IHds]; intros [|c cs] Ca Ka H2 EL; try discriminate; [constructor|].
        inversion Cb; subst. inversion Kb; subst. inversion Ca; subst. inversion Ka; subst. cbn [zip_ops] in H2. inversion H2; subst.
        constructor; [apply (Hd max); auto|apply IHds; auto].
      + intros H. pose proof (forall2_len _ _ _ H) as EL. rewrite <- EL, skipn_all, EL, skipn_all. cbn [map flat_map].
        repeat constructor. apply cat_some_nil. clear EL. induction H as [|c d cs ds V1 V2 IHv]; [constructor|].
        inversion IH; subst. inversion Cb; subst. inversion Kb; subst. inversion Ca; subst. inversion Ka; subst. cbn [zip_ops]. constructor; auto. apply (H1 max); auto. }
  rewrite diff_to_eq, cat_some_nil. split.
  - intros H. inversion H as [|? ? H1 H']; subst. inversion H' as [|? ? H2 H'']; subst. inversion H'' as [|? ? H3 _]; subst.
    injection H1 as H1. injection H3 as H3. apply Hkids in H2. apply diff_own_nil in H1 as (E1 & E2 & E3 & E4); auto.
    unfold diff_id in H3. destruct (N.eqb_spec (el_id a) (el_id b)) as [E5|]; [|discriminate].
    destruct a as [ai an aa al ac at_ ak]. cbn in *. subst. now constructor.
  - intros V. assert (el_id a = el_id b) as Ei by now apply view_root_id.
    repeat constructor.
    + f_equal. apply diff_own_nil; auto. inversion V; subst; auto.
    + apply Hkids. now inversion V.
    + f_equal. unfold diff_id. now rewrite Ei, N.eqb_refl.
Qed.

(* ------------------------------------------------------------------ *)
(** ** Panics of diff *)

Definition no_single_keyed : element -> Prop := every (fun e => match el_children e with [c] => el_key c = None | _ => True end).

Lemma cat_total l : Forall (fun x => x <> None) l -> cat_ops l <> None.
Proof.
  induction 1 as [|x l Hx _ IH]; cbn [cat_ops]; [discriminate|]. destruct x; [|congruence]. destruct (cat_ops l); [discriminate|congruence].
Qed.
Lemma unpaired_lt mine i ds n : In n (unpaired mine i ds) -> i <= n < i + length ds.
Proof.
  revert i. induction ds as [|d ds IH]; intros i; cbn [unpaired length]; [intros []|].
  assert (In n (unpaired mine (S i) ds) -> i <= n < i + S (length ds)) as H by (intros H; apply IH in H; lia).
  destruct (el_key d) as [k|]; [destruct (locate k mine)|]; [exact H| |]; intros [<-|Hn]; auto; lia.
Qed.
Lemma diff_total b : no_single_keyed b -> forall a, diff a (Some b) <> None.
Proof.
  unfold diff. induction b as [bi bn ba bl bc bt bk IH] using element_ind2. intros H a. set (b := Element bi bn ba bl bc bt bk) in *.
  pose proof (every_root _ _ H) as Hr. pose proof (every_children _ _ H) as Hc. change (el_children b) with bc in *.
  rewrite diff_to_eq. apply cat_total. constructor; [discriminate|]. constructor; [|constructor; [discriminate|constructor]].
  change (el_children b) with bc. destruct (all_keyed a && all_keyed b) eqn:E.
  - apply andb_true_iff in E as [_ Kb]. unfold all_keyed in Kb. change (el_children b) with bc in Kb. unfold keyed_kids. apply cat_total. repeat constructor; [| |discriminate].
    + apply cat_total. clear Hr H Kb. induction IH as [|d ds Hd _ IHds]; [constructor|]. inversion Hc; subst. cbn [pair_ops].
      destruct (el_key d) as [k|]; [|auto]. destruct (locate k (el_children a)); [|auto]. constructor; [apply Hd; assumption|auto].
    + apply cat_total. apply Forall_forall. intros x Hx. apply in_map_iff in Hx as (n & <- & Hn). apply unpaired_lt in Hn. cbn in Hn.
      unfold keyed_insert. destruct (nth_error bc n) as [e|] eqn:En; [|apply nth_error_None in En; lia].
      destruct (Nat.eqb_spec n 0) as [->|].
      * destruct bc as [|c1 [|c2 bc]]; [cbn in Hn; lia| |discriminate]. cbn in Hr, Kb. unfold is_keyed in Kb. rewrite Hr in Kb. discriminate.
      * destruct (Nat.eqb n _); [discriminate|]. destruct (nth_error bc (n - 1)) eqn:E1; [discriminate|]. apply nth_error_None in E1. lia.
  - unfold plain_kids. apply cat_total. repeat constructor; try discriminate. apply cat_total. clear Hr H E. generalize (el_children a) as cs.
    induction IH as [|d ds Hd _ IHds]; intros [|c cs]; try constructor. 
    + inversion Hc; subst. now apply Hd.
    + inversion Hc; subst. now apply IHds.
Qed.

(* ------------------------------------------------------------------ *)
(** ** Keyed children: deleting and updating in place *)

Lemma keyed_filter_safe (R : element -> element -> Prop) (keep : element -> bool) (g : element -> element) r cs :
  NoDup (ids_of cs) -> ~ In r (ids_of cs) ->
  NoDup (map el_key cs) ->
  (forall c, In c cs -> keep c = true -> el_key (g c) = el_key c /\ R c (g c) /\ incl (ids (g c)) (ids c)) ->
  forall done0 done, NoDup (ids_of (done0 ++ cs)) -> incl (ids_of done) (ids_of done0) ->
  keyed_safe R r done cs (map g (filter keep cs)).
Proof.
  intros _ Hr Hk Hg. induction cs as [|c cs IH]; intros done0 done Hnd Hincl; cbn [filter map]; [constructor|].
  cbn [map] in Hk. inversion Hk as [|? ? Hk1 Hk2]; subst. rewrite ids_of_cons in Hr.
  assert (~ In r (ids_of cs)) as Hr2 by (intros X; apply Hr; apply in_or_app; now right).
  assert (forall x, In x (ids c) -> x <> r /\ ~ In x (ids_of done)) as Hc.
  { intros x Hx. split; [intros ->; apply Hr; apply in_or_app; now left|]. intros Hd. apply Hincl in Hd.
    rewrite ids_of_app, ids_of_cons in Hnd. apply nodup_app_iff in Hnd as (_ & _ & Hnd). apply (Hnd x Hd). apply in_or_app. now left. }
  assert (forall q, In q cs -> keep q = true -> el_key (g q) = el_key q /\ R q (g q) /\ incl (ids (g q)) (ids q)) as Hg2 by (intros q Hq; apply Hg; now right).
  destruct (keep c) eqn:Ek; cbn [map].
  - destruct (Hg c (or_introl eq_refl) Ek) as (G1 & G2 & G3). apply kd_pair; [now symmetry|exact G2| |].
    + intros x Hx. apply in_app_or in Hx as [Hx|Hx]; [|apply created_incl_ids, G3 in Hx]; now apply Hc.
    + apply (IH Hr2 Hk2 Hg2 (done0 ++ [c])); [now rewrite <- app_assoc|]. intros x. rewrite !ids_of_app, !ids_of_one, !in_app_iff.
      intros [H|H]; [left; auto|right; auto].
  - apply kd_drop.
    + intros x [<-|[]]. apply Hc. apply in_ids_root.
    + intros Hin. apply Hk1. rewrite map_map in Hin. apply in_map_iff in Hin as (q & Eq & Hq). apply filter_In in Hq as [Hq Hkq].
      destruct (Hg2 q Hq Hkq) as (E & _). apply in_map_iff. exists q. split; [congruence|exact Hq].
    + apply (IH Hr2 Hk2 Hg2 (done0 ++ [c])); [now rewrite <- app_assoc|]. intros x. rewrite !ids_of_app, !ids_of_one, !in_app_iff.
      intros [H|H]; [left; auto|right; auto].
Qed.

(** A keyed list: some children are dropped, the others updated in place. *)
Lemma keyed_update_works max a b (keep : element -> bool) (g : element -> element) :
  proper max a -> proper max b -> NoDup (ids a) -> el_id a = el_id b ->
  all_keyed a = true -> NoDup (map el_key (el_children a)) ->
  el_children b = map g (filter keep (el_children a)) ->
  (forall c, In c (el_children a) -> el_key (g c) = el_key c /\ safe c (g c) /\ incl (ids (g c)) (ids c)) ->
  exists os b', diff a (Some b) = Some os /\ apply max os a = Some b' /\ view b' b.
Proof.
  intros Pa Pb Hnd Hid Ka Hk Eb Hg.
  assert (safe a b) as Hs.
  { apply safe_keyed; auto.
    - unfold all_keyed in *. rewrite Eb. rewrite forallb_forall in Ka |- *. intros d Hd. apply in_map_iff in Hd as (c & <- & Hc).
      apply filter_In in Hc as [Hc _]. destruct (Hg c Hc) as (E & _). specialize (Ka c Hc). unfold is_keyed in *. now rewrite E.
    - rewrite Eb, map_map. rewrite (map_ext_in _ el_key).
      + clear -Hk. induction (el_children a) as [|c cs IH]; [constructor|]. cbn [map] in Hk. inversion Hk as [|? ? H1 H2]; subst.
        cbn [filter]. destruct (keep c); [|auto]. cbn [map]. constructor; [|auto]. intros H. apply H1.
        apply in_map_iff in H as (x & Ex & Hx). apply filter_In in Hx as [Hx _]. apply in_map_iff. now exists x.
      + intros c Hc. apply filter_In in Hc as [Hc _]. now apply Hg.
    - rewrite Eb. destruct a as [ai an aa al ac at_ ak]. cbn [ids el_children el_id] in *. inversion Hnd as [|? ? N1 N2]; subst.
      apply (keyed_filter_safe safe keep g _ ac N2 N1 Hk) with (done0 := []); auto. intros x []. }
  destruct (diff_applies max a b Pa Pb Hs) as (os & Ho & Hx). destruct (Hx a (view_refl a)) as (b' & H1 & H2). exists os, b'. auto.
Qed.

(* ------------------------------------------------------------------ *)
(** ** Conversion from wrapped nodes *)

Lemma wrapped_ind2 (P : wrapped -> Prop) :
  (forall k a t ls cs, Forall P cs -> P (Wrapped k a t ls cs)) -> forall w, P w.
Proof.
  intros H. fix IH 1. intros [k a t ls cs]. apply H. induction cs as [|c cs IHc]; constructor; [apply IH|exact IHc].
Qed.
Fixpoint into_list (l : list wrapped) (h : N) : option (list element * N) :=
  match l with
  | [] => Some ([], h)
  | c :: l' =>
      match into_element c h with
      | None => None
      | Some (e, h') =>
          match into_list l' h' with
          | None => None
          | Some (es, h'') => Some (e :: es, h'')
          end
      end
  end.
Lemma into_element_eq k attrs text ls cs head :
  into_element (Wrapped k attrs text ls cs) head =
  match arm_of k with
  | None => None
  | Some m =>
      match (if arm_children m then into_list cs (head + 1) else Some ([], (head + 1)%N)) with
      | None => None
      | Some (es, head2) =>
          Some (Element head (arm_name m) (if arm_attrs m then attrs else []) (if arm_listeners m then ls else [])
                  es (if arm_text m then Some text else None) None, head2)
      end
  end.
Proof.
  assert (forall l h, (fix go (l : list wrapped) (h : N) : option (list element * N) :=
                         match l with
                         | [] => Some ([], h)
                         | c :: l' =>
                             match into_element c h with
                             | None => None
                             | Some (e, h') =>
                                 match go l' h' with
                                 | None => None
                                 | Some (es, h'') => Some (e :: es, h'')
                                 end
                             end
                         end) l h = into_list l h) as E.
  { induction l as [|c l IH]; intros h; [reflexivity|]. cbn [into_list]. destruct (into_element c h) as [[e h']|]; [|reflexivity]. now rewrite IH. }
  cbn [into_element]. destruct (arm_of k) as [m|]; [|reflexivity]. cbn [new_id]. destruct (arm_children m); [|reflexivity]. now rewrite E.
Qed.

Lemma into_numbered w : forall i e j, into_element w i = Some (e, j) -> numbered i e j /\ unkeyed e.
Proof.
  induction w as [k a t ls cs IH] using wrapped_ind2. intros i e j. rewrite into_element_eq.
  destruct (arm_of k) as [m|]; [|discriminate].
  assert (forall h es h', into_list cs h = Some (es, h') -> numbered_list h es h' /\ Forall unkeyed es) as Hl.
  { clear -IH. induction IH as [|c cs Hc _ IHcs]; intros h es h'; cbn [into_list].
    - intros [= <- <-]. split; constructor.
    - destruct (into_element c h) as [[e h1]|] eqn:E; [|discriminate]. destruct (into_list cs h1) as [[es' h2]|] eqn:E2; [|discriminate].
      intros [= <- <-]. destruct (Hc _ _ _ E) as [H1 H2]. destruct (IHcs _ _ _ E2) as [H3 H4]. split; [econstructor; eauto|constructor; auto]. }
  destruct (arm_children m).
  - destruct (into_list cs (i + 1)) as [[es h]|] eqn:E; [|discriminate]. intros [= <- <-]. destruct (Hl _ _ _ E) as [H1 H2].
    split; [now constructor|]. constructor; [reflexivity|exact H2].
  - intros [= <- <-]. split; [constructor; constructor|]. constructor; [reflexivity|constructor].
Qed.

(** Attribute maps stay maps. *)
Inductive wrapped_ok : wrapped -> Prop :=
| Wok k a t ls cs : hm_wf a -> Forall wrapped_ok cs -> wrapped_ok (Wrapped k a t ls cs).
Lemma into_proper w : forall max i e j, wrapped_ok w -> into_element w i = Some (e, j) -> (j <= max + 1)%N -> proper max e.
Proof.
  induction w as [k a t ls cs IH] using wrapped_ind2. intros max i e j Hok H Hj.
  pose proof (into_numbered _ _ _ _ H) as [Hn _]. apply numbered_range in Hn as (R & _). revert H. rewrite into_element_eq.
  inversion Hok as [? ? ? ? ? Wa Hc]; subst.
  destruct (arm_of k) as [m|]; [|discriminate].
  assert (forall h es h', into_list cs h = Some (es, h') -> (h' <= max + 1)%N -> Forall (proper max) es) as Hl.
  { clear -IH Hc. induction IH as [|c cs H1 _ IHcs]; intros h es h'; cbn [into_list].
    - intros [= <- <-]. constructor.
    - destruct (into_element c h) as [[e h1]|] eqn:E; [|discriminate]. destruct (into_list cs h1) as [[es' h2]|] eqn:E2; [|discriminate].
      intros [= <- <-] Hb. inversion Hc; subst. constructor.
      + apply (H1 max h e h1); auto. assert (h1 <= h2)%N; [|lia].
        assert (numbered_list h1 es' h2) as Hnl.
        { clear -E2. revert h1 es' h2 E2. induction cs as [|c cs IH]; intros h1 es' h2; cbn [into_list].
          - intros [= <- <-]. constructor.
          - destruct (into_element c h1) as [[e1 h3]|] eqn:E; [|discriminate]. destruct (into_list cs h3) as [[es2 h4]|] eqn:E2; [|discriminate].
            intros [= <- <-]. econstructor; [apply (into_numbered _ _ _ _ E)|now apply IH]. }
        now apply numbered_list_range in Hnl.
      + apply (IHcs H3 h1 es' h2); auto. }
  destruct (arm_children m).
  - destruct (into_list cs (i + 1)) as [[es h]|] eqn:E; [|discriminate]. intros [= <- <-]. specialize (Hl _ _ _ E Hj).
    constructor; [|exact Hl]. cbn. split; [lia|]. destruct (arm_attrs m); [exact Wa|constructor].
  - intros [= <- <-]. constructor; [|constructor]. cbn. split; [lia|]. destruct (arm_attrs m); [exact Wa|constructor].
Qed.

(** Supported nodes are converted faithfully. *)
Lemma supported_faithful w : supported w -> forall i, exists e j, into_element w i = Some (e, j) /\ faithful w e.
Proof.
  induction w as [k a t ls cs IH] using wrapped_ind2. intros H i. rewrite into_element_eq.
  inversion H as [? ? ? ? ? Hk Hc|? ? ? ? Hk|?]; subst.
  - assert (forall h, exists es h', into_list cs h = Some (es, h') /\ Forall2 faithful cs es) as Hl.
    { clear -IH Hc. induction IH as [|c cs H1 _ IHcs]; intros h; cbn [into_list].
      - exists [], h. split; [reflexivity|constructor].
      - inversion Hc as [|? ? S1 S2]; subst. destruct (H1 S1 h) as (e & h1 & E1 & F1). destruct (IHcs S2 h1) as (es & h2 & E2 & F2).
        exists (e :: es), h2. rewrite E1, E2. split; [reflexivity|now constructor]. }
    destruct (Hl (i + 1)%N) as (es & h & E & F).
    cbn [In] in Hk. destruct Hk as [<-|[<-|[<-|[<-|[]]]]]; cbn [arm_of arm_children arm_name arm_attrs arm_listeners arm_text];
      rewrite E; eexists _, _; (split; [reflexivity|]); exact (Faithful _ _ _ _ _ _ _ _ F).
  - cbn [In] in Hk. repeat destruct Hk as [<-|Hk]; try destruct Hk; cbn [arm_of arm_children arm_name arm_attrs arm_listeners arm_text];
      eexists _, _; (split; [reflexivity|]); (exact (Faithful _ _ _ _ [] _ [] _ (Forall2_nil _))).
  - cbn. eexists _, _; (split; [reflexivity|]); exact (Faithful KBr [] _ [] [] _ [] _ (Forall2_nil _)).
Qed.
(** How many ids a conversion uses. *)
Lemma numbered_count : (forall i e j, numbered i e j -> j = i + N.of_nat (length (ids e)))%N /\
  (forall i l j, numbered_list i l j -> j = i + N.of_nat (length (ids_of l)))%N.
Proof.
  apply numbered_both.
  - intros i n a l cs t k j _ ->. cbn [ids length]. unfold ids_of. lia.
  - intros i. cbn. lia.
  - intros i c cs j m _ -> _ ->. rewrite ids_of_cons, app_length. lia.
Qed.
(** The ids in document order are consecutive. *)
Lemma numbered_seq : (forall i e j, numbered i e j -> ids e = map (fun n => i + N.of_nat n)%N (seq 0 (length (ids e)))) /\
  (forall i l j, numbered_list i l j -> ids_of l = map (fun n => i + N.of_nat n)%N (seq 0 (length (ids_of l)))).
Proof.
  apply numbered_both.
  - intros i n a l cs t k j _ H. cbn [ids length seq map]. f_equal; [lia|]. change (flat_map ids cs) with (ids_of cs). rewrite H at 1.
    rewrite <- seq_shift, map_map. apply map_ext. intros q. lia.
  - reflexivity.
  - intros i c cs j m Hc H1 Hl H2. rewrite ids_of_cons, app_length. rewrite seq_app, map_app. f_equal; [exact H1|].
    apply numbered_count in Hc. rewrite H2 at 1. cbn [plus]. rewrite <- (Nat.add_0_r (length (ids c))) at 1.
    generalize (length (ids_of cs)) as m'. clear H2. intros m'. generalize 0 as o. induction m' as [|m' IHm]; intros o; [reflexivity|]. cbn [seq map].
    rewrite <- Nat.add_succ_r, IHm. f_equal. lia.
Qed.

(* ------------------------------------------------------------------ *)
(** ** Deciding [proper], for examples *)
Fixpoint nodes (e : element) : list element :=
  match e with Element _ _ _ _ cs _ _ => e :: flat_map nodes cs end.
Lemma every_nodes P e : Forall P (nodes e) -> every P e.
Proof.
  induction e as [i n a l cs t k IH] using element_ind2. cbn [nodes]. intros H. inversion H as [|? ? H1 H2]; subst. constructor; [exact H1|].
  cbn [el_children]. clear H H1. induction IH as [|c cs Hc _ IHcs]; [constructor|]. cbn [flat_map] in H2. apply Forall_app in H2 as [H2 H3].
  constructor; auto.
Qed.
Fixpoint nodupb (l : list str) : bool :=
  match l with [] => true | x :: l' => negb (existsb (str_eqb x) l') && nodupb l' end.
Lemma nodupb_ok l : nodupb l = true -> NoDup l.
Proof.
  induction l as [|x l IH]; cbn; intros H; [constructor|]. apply andb_true_iff in H as [H1 H2]. constructor; [|auto].
  intros Hin. apply negb_true_iff in H1. assert (existsb (str_eqb x) l = true); [|congruence]. apply existsb_exists. exists x. split; [exact Hin|apply str_eqb_refl].
Qed.
Definition properb (max : N) (e : element) : bool := forallb (fun x => N.leb (el_id x) max && nodupb (keys (el_attrs x))) (nodes e).
Lemma properb_ok max e : properb max e = true -> proper max e.
Proof.
  intros H. apply every_nodes. apply Forall_forall. intros x Hx. unfold properb in H. rewrite forallb_forall in H. apply H in Hx.
  apply andb_true_iff in Hx as [H1 H2]. split; [now apply N.leb_le|now apply nodupb_ok].
Qed.
Definition unkeyedb (e : element) : bool := forallb (fun x => match el_key x with None => true | _ => false end) (nodes e).
Lemma unkeyedb_ok e : unkeyedb e = true -> unkeyed e.
Proof.
  intros H. apply every_nodes. apply Forall_forall. intros x Hx. unfold unkeyedb in H. rewrite forallb_forall in H. apply H in Hx. now destruct (el_key x).
Qed.
