(** Rust [std::collections::HashMap<String, V>].

    A map is the list of its entries in *iteration order*. Two hash maps with the same entries may
    iterate in different orders, so statements never rely on the order: they quantify over every
    entry list, and compare maps by lookup ([hm_equiv]). *)
From Verif Require Import Base.

Section HMap.
Context {V : Type}.

Definition hmap := list (str * V).

(** [HashMap::get]. *)
Fixpoint get (k : str) (m : hmap) : option V :=
  match m with
  | [] => None
  | (k', v) :: m' => if str_eqb k k' then Some v else get k m'
  end.

(** [HashMap::insert]: replaces the value of an existing key. *)
Fixpoint insert (k : str) (v : V) (m : hmap) : hmap :=
  match m with
  | [] => [(k, v)]
  | (k', v') :: m' => if str_eqb k k' then (k', v) :: m' else (k', v') :: insert k v m'
  end.

(** [HashMap::remove]. *)
Fixpoint remove (k : str) (m : hmap) : hmap :=
  match m with
  | [] => []
  | (k', v') :: m' => if str_eqb k k' then remove k m' else (k', v') :: remove k m'
  end.

(** [HashMap::contains_key]. *)
Definition contains_key (k : str) (m : hmap) : bool :=
  match get k m with Some _ => true | None => false end.

(** [HashMap::extend]. *)
Definition extend (m : hmap) (kvs : list (str * V)) : hmap :=
  fold_left (fun m kv => insert (fst kv) (snd kv) m) kvs m.

Definition keys (m : hmap) : list str := map fst m.

(** The hash-map representation invariant: one entry per key. *)
Definition hm_wf (m : hmap) : Prop := NoDup (keys m).

(** Equality of maps, independent of iteration order. *)
Definition hm_equiv (m1 m2 : hmap) : Prop := forall k, get k m1 = get k m2.

Lemma get_insert k k' v m : get k (insert k' v m) = if str_eqb k k' then Some v else get k m.
Proof.
  induction m as [|[k1 v1] m IH]; cbn [insert get].
  - reflexivity.
  - destruct (str_eqb k' k1) eqn:H1; cbn [get].
    + apply str_eqb_eq in H1 as ->. destruct (str_eqb k k1); reflexivity.
    + destruct (str_eqb k k1) eqn:H2.
      * apply str_eqb_eq in H2 as ->. rewrite str_eqb_sym, H1. reflexivity.
      * exact IH.
Qed.

Lemma get_remove k k' m : get k (remove k' m) = if str_eqb k k' then None else get k m.
Proof.
  induction m as [|[k1 v1] m IH]; cbn [remove get].
  - now destruct (str_eqb k k').
  - destruct (str_eqb k' k1) eqn:H1; cbn [get].
    + apply str_eqb_eq in H1 as ->. rewrite IH. destruct (str_eqb k k1); reflexivity.
    + destruct (str_eqb k k1) eqn:H2.
      * apply str_eqb_eq in H2 as ->. rewrite str_eqb_sym, H1. reflexivity.
      * exact IH.
Qed.

Lemma get_none_iff k m : get k m = None <-> ~ In k (keys m).
Proof.
  induction m as [|[k1 v1] m IH]; simpl; [tauto|].
  destruct (str_eqb k k1) eqn:H.
  - apply str_eqb_eq in H as ->. split; [discriminate | intros N; exfalso; apply N; now left].
  - apply str_eqb_neq in H. rewrite IH. split; intros N; [intros [E|E]; [congruence|auto]|tauto].
Qed.

Lemma get_some_in k v m : get k m = Some v -> In (k, v) m.
Proof.
  induction m as [|[k1 v1] m IH]; simpl; [discriminate|].
  destruct (str_eqb k k1) eqn:H.
  - apply str_eqb_eq in H as ->. intros [= ->]. now left.
  - intros G. right. auto.
Qed.

Lemma in_get k v m : hm_wf m -> In (k, v) m -> get k m = Some v.
Proof.
  unfold hm_wf. induction m as [|[k1 v1] m IH]; simpl; [tauto|].
  intros Hnd [E|E]; inversion Hnd as [|? ? Hni Hnd']; subst.
  - injection E as -> ->. now rewrite str_eqb_refl.
  - destruct (str_eqb k k1) eqn:H.
    + apply str_eqb_eq in H as ->. exfalso. apply Hni. apply in_map_iff. now exists (k1, v).
    + auto.
Qed.

Lemma keys_insert k v m :
  keys (insert k v m) = if contains_key k m then keys m else keys m ++ [k].
Proof.
  unfold contains_key. induction m as [|[k1 v1] m IH]; cbn [insert get keys map fst app]; [reflexivity|].
  destruct (str_eqb k k1) eqn:H; cbn [keys map fst]; [reflexivity|].
  change (map fst (insert k v m)) with (keys (insert k v m)). rewrite IH.
  destruct (get k m); reflexivity.
Qed.

Lemma insert_wf k v m : hm_wf m -> hm_wf (insert k v m).
Proof.
  unfold hm_wf. intros H. rewrite keys_insert. unfold contains_key.
  destruct (get k m) eqn:G; [exact H|]. apply get_none_iff in G.
  eapply Permutation_NoDup; [apply Permutation_cons_append|]. now constructor.
Qed.

Lemma keys_remove_in k k' m : In k (keys (remove k' m)) <-> In k (keys m) /\ k <> k'.
Proof.
  induction m as [|[k1 v1] m IH]; simpl; [tauto|].
  destruct (str_eqb k' k1) eqn:H; simpl.
  - apply str_eqb_eq in H as ->. rewrite IH. intuition congruence.
  - apply str_eqb_neq in H. rewrite IH. intuition congruence.
Qed.

Lemma remove_wf k m : hm_wf m -> hm_wf (remove k m).
Proof.
  unfold hm_wf. induction m as [|[k1 v1] m IH]; cbn [remove]; [auto|].
  cbn [keys map fst]. intros H. inversion H as [|? ? Hni Hnd]; subst.
  destruct (str_eqb k k1); [auto|]. cbn [keys map fst]. constructor; [|auto].
  intros Hin. apply keys_remove_in in Hin as [Hin _]. auto.
Qed.

Lemma extend_wf m kvs : hm_wf m -> hm_wf (extend m kvs).
Proof.
  unfold extend. revert m. induction kvs as [|[k v] kvs IH]; intros m H; [exact H|].
  simpl. apply IH. now apply insert_wf.
Qed.

Lemma hm_wf_nil : hm_wf [].
Proof. constructor. Qed.

Lemma hm_equiv_refl m : hm_equiv m m. Proof. intros k; reflexivity. Qed.
Lemma hm_equiv_sym a b : hm_equiv a b -> hm_equiv b a. Proof. intros H k; now rewrite H. Qed.
Lemma hm_equiv_trans a b c : hm_equiv a b -> hm_equiv b c -> hm_equiv a c.
Proof. intros H1 H2 k; now rewrite H1, H2. Qed.

Lemma perm_wf a b : Permutation a b -> hm_wf a -> hm_wf b.
Proof. unfold hm_wf, keys. intros P H. eapply Permutation_NoDup; [|exact H]. now apply Permutation_map. Qed.

Lemma perm_equiv a b : hm_wf a -> Permutation a b -> hm_equiv a b.
Proof.
  intros W P k. pose proof (perm_wf _ _ P W) as W'.
  destruct (get k a) as [v|] eqn:G.
  - symmetry. apply in_get; auto. eapply Permutation_in; [exact P|]. now apply get_some_in.
  - symmetry. apply get_none_iff. apply get_none_iff in G. intros Hin. apply G.
    unfold keys in *. eapply Permutation_in; [|exact Hin]. apply Permutation_map. now symmetry.
Qed.

Lemma equiv_perm a b : hm_wf a -> hm_wf b -> hm_equiv a b -> Permutation a b.
Proof.
  intros Wa Wb E. apply NoDup_Permutation.
  - apply NoDup_map_inv with (f := fst). exact Wa.
  - apply NoDup_map_inv with (f := fst). exact Wb.
  - intros [k v]. split; intros Hin; apply get_some_in.
    + rewrite <- E. now apply in_get.
    + rewrite E. now apply in_get.
Qed.

(** What a sequence of inserts leaves: the last value given for each key. *)
Fixpoint last_value (k : str) (kvs : list (str * V)) : option V :=
  match kvs with
  | [] => None
  | (k', v) :: kvs' =>
      match last_value k kvs' with
      | Some w => Some w
      | None => if str_eqb k k' then Some v else None
      end
  end.

Lemma get_extend k m kvs :
  get k (extend m kvs) = match last_value k kvs with Some v => Some v | None => get k m end.
Proof.
  unfold extend. revert m. induction kvs as [|[k' v] kvs IH]; intros m; [reflexivity|].
  cbn [fold_left fst snd last_value]. rewrite IH, get_insert.
  destruct (last_value k kvs); [reflexivity|]. destruct (str_eqb k k'); reflexivity.
Qed.

Lemma extend_nodup kvs : NoDup (map fst kvs) -> extend [] kvs = kvs.
Proof.
  intros H. unfold extend.
  assert (forall m, NoDup (map fst (m ++ kvs)) ->
            fold_left (fun m kv => insert (fst kv) (snd kv) m) kvs m = m ++ kvs) as G.
  { clear H. induction kvs as [|[k v] kvs IH]; intros m H; simpl; [now rewrite app_nil_r|].
    assert (insert k v m = m ++ [(k, v)]) as E.
    { assert (~ In k (keys m)) as Hni.
      { rewrite map_app in H. simpl in H. apply NoDup_remove_2 in H. intros Hin. apply H.
        apply in_or_app. now left. }
      clear -Hni. induction m as [|[k1 v1] m IH]; simpl in *; [reflexivity|].
      assert (str_eqb k k1 = false) as -> by (apply str_eqb_neq; intuition congruence).
      rewrite IH; tauto. }
    rewrite E, IH; rewrite <- app_assoc; simpl; auto. }
  now apply (G []).
Qed.

End HMap.
Arguments hmap V : clear implicits.

(** Rust [HashMap == HashMap] (values are strings). *)
Definition hm_eqb (a b : hmap str) : bool :=
  Nat.eqb (length a) (length b) &&
  forallb (fun kv => match get (fst kv) b with Some v => str_eqb (snd kv) v | None => false end) a.

Lemma hm_eqb_equiv a b : hm_wf a -> hm_wf b -> (hm_eqb a b = true <-> hm_equiv a b).
Proof.
  intros Wa Wb. unfold hm_eqb. rewrite andb_true_iff, Nat.eqb_eq, forallb_forall. split.
  - intros [Hl Hf]. assert (incl a b) as I.
    { intros [k v] Hin. specialize (Hf _ Hin). simpl in Hf.
      destruct (get k b) eqn:G; [|discriminate]. apply str_eqb_eq in Hf as ->. now apply get_some_in. }
    assert (incl b a) as I2.
    { apply NoDup_length_incl; [|lia|exact I]. apply NoDup_map_inv with (f := fst). exact Wa. }
    intros k. destruct (get k a) eqn:G.
    + symmetry. apply in_get; auto. apply I. now apply get_some_in.
    + symmetry. apply get_none_iff. apply get_none_iff in G. intros Hin. apply G.
      apply in_map_iff in Hin as ([k' v'] & E & Hin). simpl in E. subst.
      apply in_map_iff. exists (k, v'). auto.
  - intros E. pose proof (equiv_perm _ _ Wa Wb E) as P. split; [now apply Permutation_length|].
    intros [k v] Hin. simpl. rewrite <- E, (in_get k v a Wa Hin). apply str_eqb_refl.
Qed.
