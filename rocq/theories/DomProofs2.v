(** The edit script of a safe edit, applied, gives the new tree. *)
From Verif Require Import Base HMap Num DomModel DomSpec DomProofs.
From Coq Require Import Lia.

(* ------------------------------------------------------------------ *)
(** ** A node's own fields *)

Lemma listener_eqb_eq a b : listener_eqb a b = true <-> a = b.
Proof.
  unfold listener_eqb. rewrite andb_true_iff, !str_eqb_eq. destruct a, b; cbn. split; [intros [-> ->]; reflexivity|now intros [= -> ->]].
Qed.
Lemma listeners_eqb_eq a b : listeners_eqb a b = true <-> a = b.
Proof.
  revert b. induction a as [|x a IH]; intros [|y b]; cbn; try (split; congruence); try tauto.
  rewrite andb_true_iff, listener_eqb_eq, IH. split; [intros [-> ->]; reflexivity|now intros [= -> ->]].
Qed.
Lemma text_eqb_eq a b : text_eqb a b = true <-> a = b.
Proof. destruct a, b; cbn; try (split; congruence). rewrite str_eqb_eq. split; congruence. Qed.

Lemma flat_map_filter {A B} (p : A -> bool) (g : A -> B) l :
  flat_map (fun x => if p x then [] else [g x]) l = map g (filter (fun x => negb (p x)) l).
Proof. induction l as [|x l IH]; cbn; [reflexivity|]. rewrite IH. now destruct (p x). Qed.

Lemma last_value_get (k : str) (l : list (str * str)) : NoDup (map fst l) -> last_value k l = get k l.
Proof.
  induction l as [|[k' v] l IH]; intros H; [reflexivity|]. inversion H as [|? ? Hn Hd]; subst. cbn [last_value get].
  rewrite IH by exact Hd. destruct (str_eqb k k') eqn:E; [|now destruct (get k l)].
  apply str_eqb_eq in E as ->. destruct (get k' l) eqn:G; [|reflexivity]. exfalso. apply Hn. apply get_some_in in G.
  apply in_map_iff. now exists (k', s).
Qed.
Lemma get_filter (k : str) (p : str * str -> bool) (l : hmap str) : hm_wf l ->
  get k (filter p l) = match get k l with Some v => if p (k, v) then Some v else None | None => None end.
Proof.
  induction l as [|[k' v] l IH]; intros H; [reflexivity|]. inversion H as [|? ? Hn Hd]; subst. cbn [filter get].
  destruct (str_eqb k k') eqn:E.
  - apply str_eqb_eq in E as ->. destruct (p (k', v)); cbn [get]; [now rewrite str_eqb_refl|].
    rewrite IH by exact Hd. destruct (get k' l) eqn:G; [|reflexivity]. exfalso. apply Hn. apply get_some_in in G.
    apply in_map_iff. now exists (k', s).
  - destruct (p (k', v)); cbn [get]; [rewrite E|]; now apply IH.
Qed.
Lemma filter_wf (p : str * str -> bool) (l : hmap str) : hm_wf l -> NoDup (map fst (filter p l)).
Proof.
  induction l as [|[k v] l IH]; intros H; [constructor|]. inversion H as [|? ? Hn Hd]; subst. cbn [filter].
  destruct (p (k, v)); [|now apply IH]. cbn [map fst]. constructor; [|now apply IH].
  intros Hin. apply Hn. apply in_map_iff in Hin as (x & Ex & Hx). apply filter_In in Hx as [Hx _]. rewrite <- Ex.
  apply in_map_iff. now exists x.
Qed.
Lemma get_removes k ks (m : hmap str) :
  get k (fold_left (fun m x => remove x m) ks m) = if existsb (str_eqb k) ks then None else get k m.
Proof.
  revert m. induction ks as [|x ks IH]; intros m; cbn [fold_left existsb]; [reflexivity|]. rewrite IH, get_remove.
  destruct (str_eqb k x); cbn [orb]; [now destruct (existsb (str_eqb k) ks)|reflexivity].
Qed.

(** The attribute instructions turn the old map into the new one. *)
Lemma diff_attributes_spec a b : hm_wf (el_attrs a) -> hm_wf (el_attrs b) ->
  exists l, diff_attributes a b = map (Op (id_str a)) l /\
    forall i n m ls cs t k, hm_equiv m (el_attrs a) ->
      exists m', owns l (Element i n m ls cs t k) = Some (Element i n m' ls cs t k) /\ hm_equiv m' (el_attrs b).
Proof.
  intros Wa Wb. unfold diff_attributes. destruct (hm_eqb (el_attrs a) (el_attrs b)) eqn:E.
  - apply hm_eqb_equiv in E; auto. exists []. split; [reflexivity|]. intros. eexists. split; [reflexivity|].
    eapply hm_equiv_trans; eauto.
  - clear E. set (A := el_attrs a) in *. set (B := el_attrs b) in *.
    set (rem := filter (fun k => negb (contains_key k B)) (keys A)).
    set (p := fun kv : str * str => match get (fst kv) A with Some mine => negb (str_eqb mine (snd kv)) | None => true end).
    exists (map RemoveAttribute rem ++ map (fun kv => SetAttribute (fst kv) (snd kv)) (filter p B)). split.
    + rewrite map_app, !map_map. f_equal.
      * rewrite (flat_map_filter (fun k => contains_key k B) (fun k => Op (id_str a) (RemoveAttribute k))). reflexivity.
      * rewrite <- (flat_map_filter (fun kv => negb (p kv)) (fun kv => Op (id_str a) (SetAttribute (fst kv) (snd kv)))) in * || idtac.
        transitivity (flat_map (fun kv => if negb (p kv) then [] else [Op (id_str a) (SetAttribute (fst kv) (snd kv))]) B).
        -- apply flat_map_ext. intros [x y]. unfold p. cbn [fst snd]. destruct (get x A) as [mine|]; [|reflexivity].
           now destruct (str_eqb mine y).
        -- rewrite flat_map_filter. f_equal. apply filter_ext. intros. apply negb_involutive.
    + intros i n m ls cs t k Hm. rewrite owns_app, owns_remove, owns_set_attrs. eexists. split; [reflexivity|].
      intros q. rewrite get_extend, last_value_get by now apply filter_wf. rewrite get_filter by exact Wb. rewrite get_removes.
      destruct (get q B) as [v|] eqn:GB.
      * unfold p. cbn [fst snd]. destruct (get q A) as [mine|] eqn:GA; [|reflexivity].
        destruct (str_eqb mine v) eqn:Em; cbn [negb]; [|reflexivity]. apply str_eqb_eq in Em as ->.
        destruct (existsb (str_eqb q) rem) eqn:Ex; [|rewrite Hm; exact GA].
        exfalso. apply existsb_exists in Ex as (y & Hy & Ey). apply str_eqb_eq in Ey as <-. apply filter_In in Hy as [_ Hy].
        unfold contains_key in Hy. now rewrite GB in Hy.
      * destruct (existsb (str_eqb q) rem) eqn:Ex; [reflexivity|]. rewrite Hm.
        destruct (get q A) as [mine|] eqn:GA; [|reflexivity]. exfalso.
        assert (existsb (str_eqb q) rem = true) as X; [|congruence].
        apply existsb_exists. exists q. split; [|apply str_eqb_refl]. apply filter_In. unfold contains_key. rewrite GB. split; [|reflexivity].
        destruct (in_dec str_dec q (keys A)) as [H|H]; [exact H|]. apply get_none_iff in H. congruence.
Qed.

(** The name, attribute, text and listener instructions. *)
Lemma diff_own_spec a b : hm_wf (el_attrs a) -> hm_wf (el_attrs b) ->
  (el_id a = el_id b \/ (el_name a = el_name b /\ el_listeners a = el_listeners b)) ->
  exists l, diff_own a b = map (Op (id_str a)) l /\
    forall i m cs k, hm_equiv m (el_attrs a) ->
      exists m', owns l (Element i (el_name a) m (el_listeners a) cs (el_text a) k)
                 = Some (Element i (el_name b) m' (el_listeners b) cs (el_text b) k) /\ hm_equiv m' (el_attrs b).
Proof.
  intros Wa Wb Hid.
  assert (exists l1, diff_name a b = map (Op (id_str a)) l1 /\ forall i m ls cs t k,
    owns l1 (Element i (el_name a) m ls cs t k) = Some (Element i (el_name b) m ls cs t k)) as (l1 & E1 & H1).
  { unfold diff_name. destruct (str_eqb (el_name a) (el_name b)) eqn:E.
    - apply str_eqb_eq in E. exists []. split; [reflexivity|]. intros. cbn. now rewrite E.
    - destruct Hid as [Hid|[Hn _]]; [|rewrite Hn, str_eqb_refl in E; discriminate].
      exists [SetTagName (el_name b)]. split; [|reflexivity]. cbn. unfold id_str. now rewrite Hid. }
  destruct (diff_attributes_spec a b Wa Wb) as (l2 & E2 & H2).
  assert (exists l3, diff_text a b = map (Op (id_str a)) l3 /\ forall i n m ls cs k,
    owns l3 (Element i n m ls cs (el_text a) k) = Some (Element i n m ls cs (el_text b) k)) as (l3 & E3 & H3).
  { unfold diff_text. destruct (text_eqb (el_text a) (el_text b)) eqn:E.
    - apply text_eqb_eq in E. exists []. split; [reflexivity|]. intros. cbn. now rewrite E.
    - destruct (el_text b) as [v|]; [exists [SetText v]|exists [RemoveText]]; split; reflexivity. }
  assert (exists l4, diff_listeners a b = map (Op (id_str a)) l4 /\ forall i n m cs t k,
    owns l4 (Element i n m (el_listeners a) cs t k) = Some (Element i n m (el_listeners b) cs t k)) as (l4 & E4 & H4).
  { unfold diff_listeners. destruct (listeners_eqb (el_listeners a) (el_listeners b)) eqn:E.
    - apply listeners_eqb_eq in E. exists []. split; [reflexivity|]. intros. cbn. now rewrite E.
    - destruct Hid as [Hid|[_ Hl]]; [|apply listeners_eqb_eq in Hl; congruence].
      exists (RemoveListeners :: map (fun x => AttachListener (l_name x) (l_event x)) (el_listeners b)). split.
      + cbn [map]. f_equal. unfold generate_listeners. rewrite map_map. unfold id_str. now rewrite Hid.
      + intros. cbn [owns own with_listeners]. now rewrite owns_attach. }
  exists (l1 ++ l2 ++ l3 ++ l4). split.
  - unfold diff_own. rewrite E1, E2, E3, E4, !map_app. reflexivity.
  - intros i m cs k Hm. destruct (H2 i (el_name b) m (el_listeners a) cs (el_text a) k Hm) as (m' & O2 & Hm').
    exists m'. split; [|exact Hm']. now rewrite owns_app, H1, owns_app, O2, owns_app, H3.
Qed.

(* ------------------------------------------------------------------ *)
(** ** Creation *)

Lemma create_eq i n a l cs t k p :
  create_from_scratch (Element i n a l cs t k) p =
  Op (dec i) (CreateTag n p) ::
  map (Op (dec i)) (map (fun kv => SetAttribute (fst kv) (snd kv)) a ++ map (fun x => AttachListener (l_name x) (l_event x)) l
                    ++ match t with Some v => [SetText v] | None => [] end)
  ++ flat_map (fun c => create_from_scratch c (Some (dec i))) cs.
Proof.
  assert ((fix go (l0 : list element) : list op := match l0 with [] => [] | c :: l' => create_from_scratch c (Some (dec i)) ++ go l' end) cs
    = flat_map (fun c => create_from_scratch c (Some (dec i))) cs) as E.
  { induction cs as [|c cs IH]; [reflexivity|]. cbn [flat_map]. now rewrite IH. }
  cbn [create_from_scratch]. rewrite E, !map_app, !map_map, <- !app_assoc. cbn [app]. destruct t; reflexivity.
Qed.

Lemma nodup_app_iff {A} (a b : list A) : NoDup (a ++ b) <-> NoDup a /\ NoDup b /\ (forall x, In x a -> ~ In x b).
Proof.
  induction a as [|x a IH]; cbn [app].
  - split; [intros H; repeat split; [constructor|exact H|intros y []]|tauto].
  - split.
    + intros H. inversion H as [|? ? Hn Hd]; subst. apply IH in Hd as (H1 & H2 & H3). rewrite in_app_iff in Hn. repeat split.
      * constructor; tauto.
      * exact H2.
      * intros y [<-|Hy]; [tauto|now apply H3].
    + intros (H1 & H2 & H3). inversion H1; subst. constructor.
      * rewrite in_app_iff. intros [?|?]; [tauto|]. apply (H3 x); [now left|assumption].
      * apply IH. repeat split; auto. intros y Hy. apply H3. now right.
Qed.

Section Main.
Context (max : N).

Definition creates (d : element) : Prop :=
  proper max d -> NoDup (ids d) -> forall (S : N -> Prop) r n a l L t k, (r <= max)%N -> avoids (ids d) r L ->
    S r -> (forall i, In i (ids d) -> S i) ->
    exists d', view d' d /\
      runs max S (create_from_scratch d (Some (dec r))) (Element r n a l L t k) (Element r n a l (L ++ [d']) t k).

Lemma creates_list ds : Forall creates ds -> Forall (proper max) ds -> NoDup (ids_of ds) ->
  forall (S : N -> Prop) r n a l L t k, (r <= max)%N -> avoids (ids_of ds) r L ->
    S r -> (forall i, In i (ids_of ds) -> S i) ->
    exists ds', Forall2 view ds' ds /\
      runs max S (flat_map (fun c => create_from_scratch c (Some (dec r))) ds) (Element r n a l L t k) (Element r n a l (L ++ ds') t k).
Proof.
  induction 1 as [|d ds Hd _ IH]; intros Hp Hnd S r n a l L t k Hr Hav Sr Sd.
  - exists []. split; [constructor|]. cbn [flat_map]. rewrite app_nil_r. constructor.
  - inversion Hp as [|? ? P1 P2]; subst. rewrite ids_of_cons in *.
    assert (NoDup (ids d)) as N1 by (apply nodup_app_iff in Hnd; tauto).
    assert (NoDup (ids_of ds)) as N2 by (apply nodup_app_iff in Hnd; tauto).
    destruct (Hd P1 N1 S r n a l L t k Hr) as (d' & V & R); auto.
    { intros i Hi. apply Hav. apply in_or_app. now left. }
    { intros i Hi. apply Sd. apply in_or_app. now left. }
    pose proof (view_ids _ _ V) as Ei.
    destruct (IH P2 N2 S r n a l (L ++ [d']) t k Hr) as (ds' & Vs & Rs); auto.
    { intros i Hi. destruct (Hav i) as [H1 H2]; [apply in_or_app; now right|]. split; [exact H1|].
      rewrite ids_of_app, ids_of_one, in_app_iff, Ei. intros [H|H]; [now apply H2|].
      apply nodup_app_iff in Hnd as (_ & _ & Hnd). exact (Hnd i H Hi). }
    { intros i Hi. apply Sd. apply in_or_app. now right. }
    exists (d' :: ds'). split; [now constructor|]. cbn [flat_map]. eapply runs_app; [exact R|].
    rewrite <- app_assoc in Rs. exact Rs.
Qed.

Lemma create_runs d : creates d.
Proof.
  induction d as [i nm at_ ls cs tx ky IH] using element_ind2. intros Hp Hnd S r n a l L t k Hr Hav Sr Sd.
  rewrite create_eq. pose proof (every_root _ _ Hp) as [Hi Hwf]. pose proof (every_children _ _ Hp) as Hpc. cbn [el_id el_attrs el_children] in *.
  cbn [ids] in Hnd. inversion Hnd as [|? ? Hni Hndc]; subst.
  set (Sd' := fun j => In j (i :: flat_map ids cs)).
  (* inside the new node *)
  assert (Sd' i) as Wb by now left.
  assert (exists e, owns (map (fun kv => SetAttribute (fst kv) (snd kv)) at_ ++ map (fun x => AttachListener (l_name x) (l_event x)) ls
                    ++ match tx with Some v => [SetText v] | None => [] end) (blank i nm) = Some e /\ e = Element i nm (extend [] at_) ls [] tx None) as (e & He & Ee).
  { unfold blank. rewrite owns_app, owns_set_attrs, owns_app, owns_attach. cbn [app]. destruct tx; eexists; split; reflexivity. }
  subst e. pose proof (runs_own max Sd' _ i (blank i nm) _ Hi eq_refl Wb He) as R1.
  destruct (creates_list cs IH Hpc Hndc Sd' i nm (extend [] at_) ls [] tx None Hi) as (cs' & Vs & R2).
  { intros j Hj. split; [intros ->; now apply Hni|intros []]. }
  { now left. }
  { intros j Hj. now right. }
  pose proof (runs_app _ _ _ _ _ _ _ R1 R2) as R. cbn [app] in R.
  exists (Element i nm (extend [] at_) ls cs' tx None). split.
  { constructor; [|exact Vs]. rewrite extend_nodup by exact Hwf. apply hm_equiv_refl. }
  apply (runs_cons max S _ _ _ (Element r n a l (L ++ [blank i nm]) t k)).
  - intros j Hj. unfold looks in Hj. cbn [op_instr] in Hj. rewrite parse_dec in Hj by exact Hr. congruence.
  - unfold apply_op. cbn [op_id op_instr]. rewrite !parse_dec by assumption. rewrite mutate_root by reflexivity. reflexivity.
  - discriminate.
  - apply (runs_lift max Sd' S); auto.
Qed.

(* ------------------------------------------------------------------ *)
(** ** Deletion of surplus children *)

Lemma delete_runs (S : N -> Prop) r n a l L1 c L2 t k : (r <= max)%N -> (el_id c <= max)%N -> el_id c <> r -> ~ In (el_id c) (ids_of L1) ->
  S r -> S (el_id c) ->
  runs max S [Op (id_str c) DeleteEl] (Element r n a l (L1 ++ c :: L2) t k) (Element r n a l (L1 ++ L2) t k).
Proof.
  intros Hr Hc Hne Hni Sr Sc.
  assert (find_parent_id (Element r n a l (L1 ++ c :: L2) t k) (el_id c) = Some r) as Ep.
  { rewrite find_parent_eq, parent_list_app by exact Hni. cbn [parent_list]. now rewrite N.eqb_refl. }
  apply (runs_cons max S _ _ _ (Element r n a l (L1 ++ L2) t k)).
  - intros j. unfold looks, id_str. cbn [op_instr op_id]. rewrite parse_dec by exact Hc. intros (i & [= <-] & H). rewrite Ep in H.
    destruct H as [->|[= <-]]; assumption.
  - unfold apply_op, id_str. cbn [op_id op_instr]. rewrite parse_dec by exact Hc. rewrite Ep.
    rewrite mutate_root by reflexivity. cbn [el_children].
    assert (position (fun x => N.eqb (el_id x) (el_id c)) (L1 ++ c :: L2) = Some (length L1)) as ->.
    { clear -Hni. induction L1 as [|x L1 IH]; cbn [position app]; [now rewrite N.eqb_refl|]. rewrite ids_of_cons, in_app_iff in Hni.
      destruct (N.eqb_spec (el_id x) (el_id c)) as [E|E]; [exfalso; apply Hni; left; rewrite <- E; apply in_ids_root|].
      rewrite IH; [reflexivity|tauto]. }
    unfold remove_at. cbn [with_children]. rewrite firstn_app, Nat.sub_diag, firstn_all. cbn [firstn]. rewrite app_nil_r.
    rewrite skipn_app, skipn_all2 by lia. replace (Datatypes.S (length L1) - length L1) with 1 by lia. reflexivity.
  - intros _. unfold id_str. cbn [op_id el_id]. rewrite parse_dec by exact Hc. congruence.
  - constructor.
Qed.

Lemma deletes_runs (S : N -> Prop) r n a l L1 cs xs t k : (r <= max)%N ->
  Forall2 view xs cs -> Forall (fun c => (el_id c <= max)%N /\ el_id c <> r /\ ~ In (el_id c) (ids_of L1)) cs ->
  S r -> (forall i, In i (ids_of cs) -> S i) ->
  runs max S (map (fun c => Op (id_str c) DeleteEl) cs) (Element r n a l (L1 ++ xs) t k) (Element r n a l L1 t k).
Proof.
  intros Hr Hv Hf Sr. induction Hv as [|x c xs cs Hx Hv IH]; intros SL.
  - cbn [map]. rewrite app_nil_r in *. constructor.
  - inversion Hf as [|? ? (F1 & F2 & F3) F']; subst. cbn [map].
    change (?o :: ?l) with ([o] ++ l). pose proof (view_root_id _ _ Hx) as E.
    apply (runs_app max S _ _ _ (Element r n a l (L1 ++ xs) t k)).
    + assert (S (el_id c)) as Sc by (apply SL; rewrite ids_of_cons; apply in_or_app; left; apply in_ids_root).
      unfold id_str. rewrite <- E in *. apply delete_runs; auto.
    + apply IH; [exact F'|]. intros i Hi. apply SL. rewrite ids_of_cons. apply in_or_app. now right.
Qed.

End Main.
