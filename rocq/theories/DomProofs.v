(** Proofs about diff and apply. *)
From Verif Require Import Base HMap Num DomModel DomSpec.
From Coq Require Import Lia.

(* ------------------------------------------------------------------ *)
(** ** Induction over elements *)

Lemma element_ind2 (P : element -> Prop) :
  (forall i n a l cs t k, Forall P cs -> P (Element i n a l cs t k)) -> forall e, P e.
Proof.
  intros H. fix IH 1. intros [i n a l cs t k]. apply H. induction cs as [|c cs IHc]; constructor; [apply IH|exact IHc].
Qed.

Lemma in_ids_root e : In (el_id e) (ids e).
Proof. destruct e; cbn. now left. Qed.
Lemma ids_of_app a b : ids_of (a ++ b) = ids_of a ++ ids_of b.
Proof. apply flat_map_app. Qed.
Lemma ids_of_cons a b : ids_of (a :: b) = ids a ++ ids_of b.
Proof. reflexivity. Qed.

Lemma ids_of_one e : ids_of [e] = ids e.
Proof. apply app_nil_r. Qed.

Lemma every_root P e : every P e -> P e.
Proof. now inversion 1. Qed.
Lemma every_children P e : every P e -> Forall (every P) (el_children e).
Proof. now inversion 1. Qed.

Lemma view_ids x e : view x e -> ids x = ids e.
Proof.
  revert x. induction e as [i n a l cs t k IH] using element_ind2. intros x H. inversion H as [? ? a1 ? ? cs1 ? ? ? ? He Hc]; subst.
  cbn [ids]. f_equal. clear He H. revert cs1 Hc. induction IH as [|c cs Hc1 _ IHcs]; intros cs1 H; inversion H; subst; [reflexivity|].
  cbn [flat_map]. f_equal; auto.
Qed.
Lemma views_ids xs es : Forall2 view xs es -> ids_of xs = ids_of es.
Proof. induction 1; [reflexivity|]. rewrite !ids_of_cons. f_equal; auto. now apply view_ids. Qed.
Lemma view_root_id x e : view x e -> el_id x = el_id e.
Proof. now inversion 1. Qed.
Lemma view_refl e : view e e.
Proof.
  induction e as [i n a l cs t k IH] using element_ind2. constructor; [apply hm_equiv_refl|].
  induction IH; constructor; auto.
Qed.
Lemma views_refl l : Forall2 view l l.
Proof. induction l; constructor; auto using view_refl. Qed.
Lemma view_sym a b : view a b -> view b a.
Proof.
  revert a. induction b as [i n a l cs t k IH] using element_ind2. intros x H. inversion H as [? ? a1 ? ? cs1 ? ? ? ? He Hc]; subst.
  constructor; [now apply hm_equiv_sym|]. clear H He. revert cs1 Hc. induction IH; intros cs1 Hc; inversion Hc; subst; constructor; auto.
Qed.
Lemma view_trans a b c : view a b -> view b c -> view a c.
Proof.
  revert a c. induction b as [i n a0 l cs t k IH] using element_ind2. intros x y H1 H2.
  inversion H1 as [? ? a1 ? ? cs1 ? ? ? ? He Hc]; subst. inversion H2 as [? ? ? a2 ? ? cs2 ? ? ? He2 Hc2]; subst.
  constructor; [eapply hm_equiv_trans; eauto|]. clear H1 H2 He He2. revert cs1 cs2 Hc Hc2.
  induction IH; intros cs1 cs2 Hc Hc2; inversion Hc; subst; inversion Hc2; subst; constructor; eauto.
Qed.

(* ------------------------------------------------------------------ *)
(** ** Searching *)

Fixpoint find_list (i : N) (f : element -> option element) (l : list element) : option (option (list element)) :=
  match l with
  | [] => None
  | c :: l' =>
      match find_mutate i f c with
      | Some (Some c') => Some (Some (c' :: l'))
      | Some None => Some None
      | None => match find_list i f l' with
                | Some (Some l'') => Some (Some (c :: l''))
                | Some None => Some None
                | None => None
                end
      end
  end.
Lemma find_mutate_eq i f ei n a l cs t k :
  find_mutate i f (Element ei n a l cs t k) =
  if N.eqb i ei then Some (f (Element ei n a l cs t k))
  else match find_list i f cs with
       | Some (Some cs') => Some (Some (Element ei n a l cs' t k))
       | Some None => Some None
       | None => None
       end.
Proof.
  cbn [find_mutate]. destruct (N.eqb i ei); [reflexivity|].
  assert ((fix go (l0 : list element) : option (option (list element)) :=
     match l0 with
     | [] => None
     | c :: l' =>
         match find_mutate i f c with
         | Some (Some c') => Some (Some (c' :: l'))
         | Some None => Some None
         | None => match go l' with
                   | Some (Some l'') => Some (Some (c :: l''))
                   | Some None => Some None
                   | None => None
                   end
         end
     end) cs = find_list i f cs) as E.
  { induction cs as [|c cs IH]; [reflexivity|]. cbn [find_list]. now rewrite IH. }
  now rewrite E.
Qed.
Lemma find_none i f e : find_mutate i f e = None <-> ~ In i (ids e).
Proof.
  induction e as [ei n a l cs t k IH] using element_ind2. rewrite find_mutate_eq. cbn [ids].
  assert (find_list i f cs = None <-> ~ In i (flat_map ids cs)) as Hl.
  { clear -IH. induction IH as [|c cs Hc _ IHcs]; cbn [find_list flat_map]; [tauto|]. rewrite in_app_iff.
    destruct (find_mutate i f c) as [[c'|]|].
    - split; [discriminate|]. intros H. exfalso. destruct Hc as [_ Hc]. assert (~ In i (ids c)) as X by tauto. now apply Hc in X.
    - split; [discriminate|]. intros H. exfalso. destruct Hc as [_ Hc]. assert (~ In i (ids c)) as X by tauto. now apply Hc in X.
    - destruct Hc as [Hc _]. specialize (Hc eq_refl). destruct (find_list i f cs) as [[?|]|]; split; try discriminate; try tauto;
      intros H; exfalso; destruct IHcs as [_ IHcs]; assert (~ In i (flat_map ids cs)) as X by tauto; apply IHcs in X; discriminate. }
  destruct (N.eqb_spec i ei).
  - split; [discriminate|]. intros H. exfalso. apply H. left. now symmetry.
  - destruct (find_list i f cs) as [[?|]|]; split; try discriminate; intros H.
    + exfalso. destruct Hl as [_ Hl]. assert (~ In i (flat_map ids cs)) as X by (intros ?; apply H; now right). apply Hl in X. discriminate.
    + exfalso. destruct Hl as [_ Hl]. assert (~ In i (flat_map ids cs)) as X by (intros ?; apply H; now right). apply Hl in X. discriminate.
    + intros [E|E]; [now symmetry in E|]. now apply Hl in E.
    + reflexivity.
Qed.
Lemma find_list_lift i f L1 c c' L2 :
  ~ In i (ids_of L1) -> find_mutate i f c = Some (Some c') -> find_list i f (L1 ++ c :: L2) = Some (Some (L1 ++ c' :: L2)).
Proof.
  induction L1 as [|x L1 IH]; intros Hn Hc; cbn [find_list app].
  - now rewrite Hc.
  - rewrite ids_of_cons, in_app_iff in Hn. destruct (find_none i f x) as [_ H]. rewrite H by tauto. rewrite IH; tauto.
Qed.
Lemma mutate_lift i f r n a l L1 c c' L2 t k :
  i <> r -> ~ In i (ids_of L1) -> mutate i f c = Some c' ->
  mutate i f (Element r n a l (L1 ++ c :: L2) t k) = Some (Element r n a l (L1 ++ c' :: L2) t k).
Proof.
  intros Hr Hn Hc. unfold mutate in *. rewrite find_mutate_eq. destruct (N.eqb_spec i r); [congruence|].
  destruct (find_mutate i f c) as [[x|]|] eqn:E; try discriminate. injection Hc as ->.
  now rewrite (find_list_lift i f L1 c c' L2 Hn E).
Qed.
Lemma mutate_found i f e e' : mutate i f e = Some e' -> In i (ids e).
Proof.
  unfold mutate. destruct (find_mutate i f e) as [x|] eqn:E; [|discriminate]. intros _.
  destruct (in_dec N.eq_dec i (ids e)) as [H|H]; [exact H|]. apply (find_none i f) in H. congruence.
Qed.
Lemma mutate_root i f e : el_id e = i -> mutate i f e = f e.
Proof. intros <-. destruct e as [i n a l cs t k]. unfold mutate. rewrite find_mutate_eq. cbn [el_id]. now rewrite N.eqb_refl. Qed.

Fixpoint parent_list (r : N) (l : list element) (i : N) : option N :=
  match l with
  | [] => None
  | c :: l' => if N.eqb (el_id c) i then Some r
               else match find_parent_id c i with Some p => Some p | None => parent_list r l' i end
  end.
Lemma find_parent_eq r n a l cs t k i : find_parent_id (Element r n a l cs t k) i = parent_list r cs i.
Proof. cbn [find_parent_id]. induction cs as [|c cs IH]; [reflexivity|]. cbn [parent_list]. now rewrite <- IH. Qed.
Lemma parent_none e i : ~ In i (ids e) -> find_parent_id e i = None.
Proof.
  induction e as [r n a l cs t k IH] using element_ind2. rewrite find_parent_eq. cbn [ids]. intros H.
  assert (~ In i (flat_map ids cs)) as Hc by (intros ?; apply H; now right). clear H.
  induction IH as [|c cs H1 _ IHcs]; [reflexivity|]. cbn [parent_list flat_map] in *. rewrite in_app_iff in Hc.
  destruct (N.eqb_spec (el_id c) i) as [<-|]; [exfalso; apply Hc; left; apply in_ids_root|].
  rewrite H1 by tauto. apply IHcs. tauto.
Qed.
Lemma parent_list_none r L i : ~ In i (ids_of L) -> parent_list r L i = None.
Proof.
  induction L as [|c L IH]; intros H; [reflexivity|]. cbn [parent_list]. rewrite ids_of_cons, in_app_iff in H.
  destruct (N.eqb_spec (el_id c) i) as [<-|]; [exfalso; apply H; left; apply in_ids_root|].
  rewrite parent_none by tauto. apply IH. tauto.
Qed.
Lemma parent_list_app r L1 L2 i : ~ In i (ids_of L1) -> parent_list r (L1 ++ L2) i = parent_list r L2 i.
Proof.
  induction L1 as [|c L1 IH]; intros H; [reflexivity|]. cbn [parent_list app]. rewrite ids_of_cons, in_app_iff in H.
  destruct (N.eqb_spec (el_id c) i) as [<-|]; [exfalso; apply H; left; apply in_ids_root|].
  rewrite parent_none by tauto. apply IH. tauto.
Qed.
Lemma parent_in e i p : find_parent_id e i = Some p -> In p (ids e) /\ In i (ids e).
Proof.
  revert p. induction e as [r n a l cs t k IH] using element_ind2. intros p. rewrite find_parent_eq. cbn [ids].
  assert (forall q, parent_list r cs i = Some q -> In q (r :: flat_map ids cs) /\ In i (flat_map ids cs)) as H.
  { clear p. induction IH as [|c cs H1 _ IHcs]; intros q; cbn [parent_list flat_map]; [discriminate|].
    destruct (N.eqb_spec (el_id c) i) as [<-|].
    - intros [= <-]. split; [now left|]. apply in_or_app. left. apply in_ids_root.
    - destruct (find_parent_id c i) as [q'|] eqn:E.
      + intros [= ->]. destruct (H1 _ eq_refl) as [A B]. split; [right|]; apply in_or_app; now left.
      + intros Hq. destruct (IHcs _ Hq) as [[A|A] B]; (split; [|apply in_or_app; now right]); [now left|].
        right. apply in_or_app. now right. }
  intros Hp. destruct (H _ Hp) as [A B]. split; [exact A|]. now right.
Qed.

(* ------------------------------------------------------------------ *)
(** ** Runs *)

Section Runs.
Context (max : N).
Notation apply_op := (apply_op max).

(** The ids an operation searches for. *)
Definition looks (o : op) (e : element) (j : N) : Prop :=
  match op_instr o with
  | CreateTag _ (Some p) => parse_uint max p = Some j
  | DeleteEl => exists i, parse_uint max (op_id o) = Some i /\ (j = i \/ find_parent_id e i = Some j)
  | _ => parse_uint max (op_id o) = Some j
  end.

(** Every non-deleting operation is one search-and-mutate. *)
Lemma op_is_mutate o : op_instr o <> DeleteEl ->
  (exists j f, forall e, apply_op o e = mutate j f e /\ forall j', looks o e j' <-> j' = j) \/ (forall e, apply_op o e = None).
Proof.
  intros Hd. unfold DomModel.apply_op, looks. destruct (parse_uint max (op_id o)) as [i|]; [|now right].
  destruct (op_instr o); try (left; eexists; eexists; intros; split; [reflexivity|split; congruence]); try (now right); try congruence.
  - destruct (parse_uint max new_child_id); [|now right]. left; eexists; eexists; intros; split; [reflexivity|split; congruence].
  - destruct (parse_uint max value); [|now right]. left; eexists; eexists; intros; split; [reflexivity|split; congruence].
  - destruct parent_id as [p|]; [|now right]. destruct (parse_uint max p) as [j|] eqn:E; [|now right].
    left; eexists; eexists; intros; split; [reflexivity|split; congruence].
Qed.

(** [runs S os e e']: applying [os] to [e] succeeds with [e']; on the way only ids of [S] are searched
    for and nobody tries to delete the root. *)
Inductive runs (S : N -> Prop) : list op -> element -> element -> Prop :=
| runs_nil e : runs S [] e e
| runs_cons o os e e1 e2 :
    (forall j, looks o e j -> S j) -> apply_op o e = Some e1 ->
    (op_instr o = DeleteEl -> parse_uint max (op_id o) <> Some (el_id e)) ->
    runs S os e1 e2 -> runs S (o :: os) e e2.

Lemma runs_apply S os e e' : runs S os e e' -> apply max os e = Some e'.
Proof. induction 1 as [|? ? ? ? ? _ H _ _ IH]; cbn [apply]; [reflexivity|]. now rewrite H. Qed.
Lemma runs_app S os1 os2 e1 e2 e3 : runs S os1 e1 e2 -> runs S os2 e2 e3 -> runs S (os1 ++ os2) e1 e3.
Proof. induction 1; intros H3; cbn; [exact H3|]. econstructor; eauto. Qed.
Lemma runs_mono (S S' : N -> Prop) os e e' : (forall i, S i -> S' i) -> runs S os e e' -> runs S' os e e'.
Proof. intros HS. induction 1; econstructor; eauto. Qed.

(** An edit of a child is an edit of the parent, when the ids searched for do not occur before it. *)
Lemma runs_lift (S S' : N -> Prop) os c c' r n a l L1 L2 t k :
  runs S os c c' ->
  (forall i, S i -> i <> r /\ ~ In i (ids_of L1)) ->
  (forall i, S i -> S' i) ->
  runs S' os (Element r n a l (L1 ++ c :: L2) t k) (Element r n a l (L1 ++ c' :: L2) t k).
Proof.
  intros Hrun Hav HSS.
  induction Hrun as [e|o os e e1 e2 Hlk Ho Hd Hrun IH]; [constructor|].
  assert (op_instr o = DeleteEl \/ op_instr o <> DeleteEl) as [D|D] by (destruct (op_instr o); (left; reflexivity) || (right; congruence)).
  - revert Ho. unfold DomModel.apply_op. specialize (Hd D). rewrite D. destruct (parse_uint max (op_id o)) as [i|] eqn:Ei; [|discriminate].
    destruct (find_parent_id e i) as [p|] eqn:Ep; [|discriminate]. intros Hm.
    assert (S p) as Hp. { apply Hlk. unfold looks. rewrite D. exists i. split; [exact Ei|now right]. }
    assert (S i) as Hi. { apply Hlk. unfold looks. rewrite D. exists i. split; [exact Ei|now left]. }
    destruct (Hav p Hp) as [P1 P2]. destruct (Hav i Hi) as [I1 I2].
    assert (find_parent_id (Element r n a l (L1 ++ e :: L2) t k) i = Some p) as Epp.
    { rewrite find_parent_eq, parent_list_app by exact I2. cbn [parent_list].
      destruct (N.eqb_spec (el_id e) i) as [E|E]; [congruence|]. now rewrite Ep. }
    apply (runs_cons S' o os _ (Element r n a l (L1 ++ e1 :: L2) t k)); [| | |exact IH].
    + intros j. unfold looks. rewrite D. intros (i' & E1 & E2). rewrite Ei in E1. injection E1 as <-. rewrite Epp in E2.
      destruct E2 as [->|[= <-]]; auto.
    + unfold DomModel.apply_op. rewrite D, Ei, Epp. now apply mutate_lift.
    + intros _. rewrite Ei. cbn [el_id]. congruence.
  - destruct (op_is_mutate o D) as [(j & f & Hj)|Hj]; [|now rewrite Hj in Ho].
    destruct (Hj e) as [Hje Hlj]. rewrite Hje in Ho. assert (S j) as Sj by (apply Hlk, Hlj; reflexivity). destruct (Hav j Sj).
    apply (runs_cons S' o os _ (Element r n a l (L1 ++ e1 :: L2) t k)); [| |congruence|exact IH].
    + intros j' Hl. destruct (Hj (Element r n a l (L1 ++ e :: L2) t k)) as [_ X]. apply X in Hl as ->. auto.
    + destruct (Hj (Element r n a l (L1 ++ e :: L2) t k)) as [X _]. rewrite X. now apply mutate_lift.
Qed.

(* ------------------------------------------------------------------ *)
(** ** Operations on the root itself *)

(** What an operation does to the element it is addressed to. *)
Definition own (o : instr) (e : element) : option element :=
  match o with
  | SetAttribute k v => Some (with_attrs (insert k v (el_attrs e)) e)
  | RemoveAttribute k => Some (with_attrs (remove k (el_attrs e)) e)
  | SetText v => Some (with_text (Some v) e)
  | RemoveText => Some (with_text None e)
  | SetTagName n => Some (with_name n e)
  | RemoveListeners => Some (with_listeners [] e)
  | AttachListener n ev => Some (with_listeners (el_listeners e ++ [Listener n ev]) e)
  | _ => None
  end.
Lemma own_op i ins e e' : (i <= max)%N -> el_id e = i -> own ins e = Some e' -> apply_op (Op (dec i) ins) e = Some e'.
Proof.
  intros Hi He Ho. unfold DomModel.apply_op. cbn [op_id op_instr]. rewrite parse_dec by exact Hi.
  destruct ins; try discriminate; cbn [own] in Ho; now rewrite mutate_root.
Qed.
Lemma own_ids ins e e' : own ins e = Some e' -> ids e' = ids e /\ el_id e' = el_id e /\ el_children e' = el_children e.
Proof. destruct e, ins; cbn; intros [= <-]; auto. Qed.
Lemma own_not_delete ins e e' : own ins e = Some e' -> ins <> DeleteEl.
Proof. destruct ins; cbn; congruence. Qed.

Fixpoint owns (l : list instr) (e : element) : option element :=
  match l with [] => Some e | o :: l' => match own o e with Some e' => owns l' e' | None => None end end.
Lemma runs_own (S : N -> Prop) l i e e' : (i <= max)%N -> el_id e = i -> S i -> owns l e = Some e' ->
  runs S (map (Op (dec i)) l) e e'.
Proof.
  intros Hi. revert e. induction l as [|o l IH]; intros e He Hw Ho; cbn [owns map] in *.
  - injection Ho as ->. constructor.
  - destruct (own o e) as [e1|] eqn:E; [|discriminate]. destruct (own_ids o e e1 E) as (E1 & E2 & _).
    econstructor; [|eapply own_op; [exact Hi|exact He|exact E]|cbn [op_instr]; intros D; exfalso; exact (own_not_delete _ _ _ E D)|].
    + intros j Hj. unfold looks in Hj. cbn [op_instr op_id] in Hj. rewrite parse_dec in Hj by exact Hi.
      destruct o; try discriminate; congruence.
    + apply IH; [congruence|exact Hw|exact Ho].
Qed.
Lemma owns_app l1 l2 e : owns (l1 ++ l2) e = match owns l1 e with Some e' => owns l2 e' | None => None end.
Proof. revert e. induction l1 as [|o l1 IH]; intros e; cbn; [reflexivity|]. destruct (own o e); auto. Qed.

End Runs.

Lemma owns_set_attrs kvs i n a l cs t k :
  owns (map (fun kv => SetAttribute (fst kv) (snd kv)) kvs) (Element i n a l cs t k) = Some (Element i n (extend a kvs) l cs t k).
Proof. revert a. induction kvs as [|[x y] kvs IH]; intros a; cbn [map owns own with_attrs el_attrs fst snd]; [reflexivity|]. now rewrite IH. Qed.
Lemma owns_attach ls i n a l cs t k :
  owns (map (fun x => AttachListener (l_name x) (l_event x)) ls) (Element i n a l cs t k) = Some (Element i n a (l ++ ls) cs t k).
Proof.
  revert l. induction ls as [|x ls IH]; intros l; cbn [map owns own with_listeners el_listeners]; [now rewrite app_nil_r|].
  rewrite IH, <- app_assoc. now destruct x.
Qed.
Lemma owns_remove ks i n a l cs t k :
  owns (map RemoveAttribute ks) (Element i n a l cs t k) = Some (Element i n (fold_left (fun m x => remove x m) ks a) l cs t k).
Proof. revert a. induction ks as [|x ks IH]; intros a; cbn [map owns own with_attrs el_attrs fold_left]; [reflexivity|]. now rewrite IH. Qed.
