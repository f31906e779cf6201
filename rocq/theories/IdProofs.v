(** Pages with attributes called id: what the first message does to the ids of the document. *)
From Coq Require Import Lia.
From Verif Require Import Base HMap Num Utf8 Json DomModel DomSpec DomProofs DomProofs2 DomProofs3 DomProofs4 DomLocal ClientModel ClientSpec BrowserSpec ClientProofs ClientProofs2 BrowserProofs.

(** Nodes with id [i] have no identified nodes below them. *)
Inductive bare (i : str) : node -> Prop :=
| bare_text s : bare i (Text s)
| bare_elem t a l k : (get attr_id a = Some i -> flat_map nids k = []) -> Forall (bare i) k -> bare i (Elem t a l k).
Lemma fresh_bare i n : ~ In i (nids n) -> bare i n.
Proof.
  induction n as [s|t a l k IH] using node_ind2; intros H; constructor.
  - intros E. exfalso. apply H. cbn [nids]. rewrite E. now left.
  - assert (~ In i (flat_map nids k)) as Hk. { intros X. apply H. cbn [nids]. apply in_or_app. now right. }
    clear H. induction IH as [|c k Hc _ IHk]; constructor.
    + apply Hc. intros X. apply Hk. cbn [flat_map]. apply in_or_app. now left.
    + apply IHk. intros X. apply Hk. cbn [flat_map]. apply in_or_app. now right.
Qed.
Lemma fresh_bares i d : ~ In i (flat_map nids d) -> Forall (bare i) d.
Proof.
  induction d as [|c d IH]; intros H; constructor.
  - apply fresh_bare. intros X. apply H. cbn [flat_map]. apply in_or_app. now left.
  - apply IH. intros X. apply H. cbn [flat_map]. apply in_or_app. now right.
Qed.

(** Any edit: what happens to ids and bareness follows from what happens at the place. *)
Lemma edit_ids (P : str -> Prop) (R : node -> list node -> Prop) d d' : node_edit R d d' ->
  (forall x r, R x r -> forall w, In w (flat_map nids r) -> In w (nids x) \/ P w) -> forall w, In w (flat_map nids d') -> In w (flat_map nids d) \/ P w.
Proof.
  intros E H. induction E as [l1 n r l2 HR|l1 t a l k k' l2 E IH]; intros w; rewrite !flat_map_app; cbn [flat_map nids]; rewrite !in_app_iff.
  - intros [X|[X|X]]; [tauto| |tauto]. destruct (H _ _ HR w X); tauto.
  - intros [X|[[X|X]|X]]; [tauto|tauto| |tauto]. destruct (IH w X); tauto.
Qed.
Lemma edit_keeps (P : str -> Prop) (R : node -> list node -> Prop) d d' : node_edit R d d' ->
  (forall x r, R x r -> forall w, P w -> In w (nids x) -> In w (flat_map nids r)) -> forall w, P w -> In w (flat_map nids d) -> In w (flat_map nids d').
Proof.
  intros E H. induction E as [l1 n r l2 HR|l1 t a l k k' l2 E IH]; intros w Hw; rewrite !flat_map_app; cbn [flat_map nids]; rewrite !in_app_iff.
  - intros [X|[X|X]]; [tauto| |tauto]. pose proof (H _ _ HR w Hw X); tauto.
  - intros [X|[[X|X]|X]]; [tauto|tauto| |tauto]. pose proof (IH w Hw X); tauto.
Qed.
Lemma edit_bare i (R : node -> list node -> Prop) d d' : node_edit R d d' ->
  (forall x r, R x r -> In i (nids x) /\ (bare i x -> Forall (bare i) r)) ->
  Forall (bare i) d -> Forall (bare i) d'.
Proof.
  intros E H. induction E as [l1 n r l2 HR|l1 t a l k k' l2 E IH]; intros F; apply Forall_app in F as [F1 F2]; apply Forall_app; (split; [exact F1|]); inversion F2 as [|? ? F3 F4]; subst.
  - apply Forall_app. split; [|exact F4]. now apply (H _ _ HR).
  - constructor; [|exact F4]. inversion F3 as [|? ? ? ? G1 G2]; subst. constructor; [|now apply IH].
    intros Hi. exfalso. assert (In i (flat_map nids k)) as X; [|now rewrite (G1 Hi) in X].
    clear -E H. induction E as [l1 n r l2 HR|l1 t a l k k' l2 E IH]; rewrite flat_map_app, in_app_iff; right; cbn [flat_map]; apply in_or_app; left.
    + now apply (H _ _ HR).
    + cbn [nids]. apply in_or_app. now right.
Qed.

(** The four instructions of a first message. *)
Lemma ex_create reparse i n p d d' : js_exec reparse (js_op (Op i (CreateTag n p))) d = Some d' ->
  (exists m, d' = d ++ [new_tag m i]) \/
  (exists m, node_edit (fun x r => exists t a l k, x = Elem t a l k /\ r = [Elem t a l (k ++ [new_tag m i])]) d d').
Proof.
  set (pay := n ++ plus :: match p with Some p => p | None => [] end).
  intros H. assert (match part 0 pay with
        | None => None
        | Some name =>
            match make_el name i with
            | None => None
            | Some el =>
                match part 1 pay with
                | None | Some [] => Some (d ++ [el])
                | Some q => by_id q (fun n => match n with
                    | Elem t a l kids => Some [Elem t a l (kids ++ [el])]
                    | Text _ => None end) d
                end
            end
        end = Some d') as H1 by (destruct p; exact H).
  clear H. destruct (part 0 pay) as [name|]; [|discriminate]. unfold make_el in H1. destruct (valid_name name); [|discriminate].
  change (Elem (to_lower name) [(attr_id, i)] [] []) with (new_tag name i) in H1.
  destruct (part 1 pay) as [[|b q]|]; [injection H1 as <-; left; now exists name| |injection H1 as <-; left; now exists name].
  right. exists name. apply by_id_edit in H1. revert H1. apply node_edit_impl. intros [s|t a l k] r [_ Hr]; [discriminate|]. injection Hr as <-. now exists t, a, l, k.
Qed.
Lemma ex_attr reparse i k v d d' : plus_free k -> js_exec reparse (js_op (Op i (SetAttribute k v))) d = Some d' ->
  node_edit (fun x r => exists t a l kids, x = Elem t a l kids /\ get attr_id a = Some i /\ r = [Elem t (insert (to_lower k) (cut v) a) l kids]) d d'.
Proof.
  intros Hk H. assert (by_id i (fun n => match n, part 0 (k ++ plus :: v) with
        | Elem t a l kids, Some k0 =>
            if valid_name k0
            then Some [Elem t (insert (to_lower k0) (match part 1 (k ++ plus :: v) with Some v => v | None => bs "undefined" end) a) l kids]
            else None
        | _, _ => None end) d = Some d') as H1 by exact H.
  rewrite part0, part1_cut in H1 by exact Hk. apply by_id_edit in H1. revert H1. apply node_edit_impl. intros [s|t a l kids] r [Hi Hr]; [discriminate|].
  apply has_id_get in Hi. destruct (valid_name k); [|discriminate]. injection Hr as <-. now exists t, a, l, kids.
Qed.
Lemma ex_attach reparse i nm ev d d' : js_exec reparse (js_op (Op i (AttachListener nm ev))) d = Some d' ->
  node_edit (fun x r => exists t a l l' kids, x = Elem t a l kids /\ get attr_id a = Some i /\ r = [Elem t a l' kids]) d d'.
Proof.
  intros H. assert (by_id i (fun n => match n, part 0 (nm ++ plus :: ev), part 1 (nm ++ plus :: ev) with
        | Elem t a l kids, Some name, Some ev => Some [Elem t a (l ++ [(ev, name)]) kids]
        | _, _, _ => None end) d = Some d') as H1 by exact H.
  apply by_id_edit in H1. revert H1. apply node_edit_impl. intros [s|t a l kids] r [Hi Hr]; [discriminate|].
  apply has_id_get in Hi. destruct (part 0 _) as [x0|]; [|discriminate]. destruct (part 1 _) as [x1|]; [|discriminate]. injection Hr as <-. now exists t, a, l, (l ++ [(x1, x0)]), kids.
Qed.
Lemma ex_text reparse i v d d' : js_exec reparse (js_op (Op i (SetText v))) d = Some d' ->
  node_edit (fun x r => exists t a l kids, x = Elem t a l kids /\ get attr_id a = Some i /\ r = [Elem t a l (text_nodes v)]) d d'.
Proof.
  intros H. assert (by_id i (fun n => match n with
        | Elem t a l kids => Some [Elem t a l (text_nodes v)]
        | Text _ => None end) d = Some d') as H1 by exact H.
  apply by_id_edit in H1. revert H1. apply node_edit_impl. intros [s|t a l kids] r [Hi Hr]; [discriminate|].
  apply has_id_get in Hi. injection Hr as <-. now exists t, a, l, kids.
Qed.

Section Paint.
Context (reparse : str -> str -> list node -> list node) (A : list N).
Definition foreign (w : str) : Prop := ~ In w (map dec A).
(** The ids of the document grow by [S] and foreign ones only, and foreign ones stay. *)
Definition grows (S : list N) (d d' : list node) : Prop :=
  (forall w, In w (flat_map nids d') -> In w (flat_map nids d) \/ In w (map dec S) \/ foreign w) /\
  (forall w, foreign w -> In w (flat_map nids d) -> In w (flat_map nids d')).
Lemma grows_refl d : grows [] d d.
Proof. split; auto. Qed.
Lemma grows_app S1 S2 d1 d2 d3 : grows S1 d1 d2 -> grows S2 d2 d3 -> grows (S1 ++ S2) d1 d3.
Proof.
  intros [H1 H2] [H3 H4]. split; [|auto]. intros w Hw. rewrite map_app, in_app_iff. destruct (H3 w Hw) as [X|[X|X]]; [|tauto|tauto]. destruct (H1 w X) as [Y|[Y|Y]]; tauto.
Qed.

Lemma run_split os1 os2 d d' : js_run reparse (os1 ++ os2) d = (d', true) -> exists d1, js_run reparse os1 d = (d1, true) /\ js_run reparse os2 d1 = (d', true).
Proof. rewrite run_app. destruct (js_run reparse os1 d) as [d1 [|]]; [eauto|discriminate]. Qed.
Lemma run_one o d d' : js_run reparse [o] d = (d', true) -> js_exec reparse o d = Some d'.
Proof. cbn [js_run]. destruct (js_exec reparse o d); [congruence|discriminate]. Qed.

(** [createTag]. *)
Lemma create_grows i n p d d' : ~ In (dec i) (flat_map nids d) -> js_exec reparse (js_op (Op (dec i) (CreateTag n p))) d = Some d' ->
  grows [i] d d' /\ Forall (bare (dec i)) d'.
Proof.
  intros Hf H. apply ex_create in H as [[m ->]|[m E]].
  - split; [split|].
    + intros w. rewrite flat_map_app, in_app_iff. cbn. tauto.
    + intros w _ Hw. rewrite flat_map_app, in_app_iff. auto.
    + apply Forall_app. split; [now apply fresh_bares|]. constructor; [|constructor]. constructor; [reflexivity|constructor].
  - split; [split|].
    + intros w Hw. apply (edit_ids (fun w => w = dec i) _ _ _ E) in Hw; [destruct Hw as [X| ->]; [now left|right; left; now left]|].
      intros x r (t & a & l & k & -> & ->) v. cbn [flat_map nids]. rewrite app_nil_r, flat_map_app, !in_app_iff. cbn. intros [X|[X|[X|[]]]]; auto.
    + intros w Hw. apply (edit_keeps foreign _ _ _ E); [|exact Hw].
      intros x r (t & a & l & k & -> & ->) v _. cbn [flat_map nids]. rewrite app_nil_r, flat_map_app, !in_app_iff. tauto.
    + revert Hf. induction E as [l1 x r l2 (t & a & l & k & -> & ->)|l1 t a l k k' l2 E IH]; intros Hf; rewrite flat_map_app in Hf; cbn [flat_map nids] in Hf; rewrite !in_app_iff in Hf.
      * apply Forall_app. split; [apply fresh_bares; tauto|]. constructor; [|apply fresh_bares; tauto]. constructor.
        -- intros Hi. exfalso. apply Hf. rewrite Hi. right. left. left. now left.
        -- apply Forall_app. split; [apply fresh_bares; tauto|]. constructor; [|constructor]. constructor; [reflexivity|constructor].
      * apply Forall_app. split; [apply fresh_bares; tauto|]. constructor; [|apply fresh_bares; tauto]. constructor.
        -- intros Hi. exfalso. apply Hf. rewrite Hi. right. left. left. now left.
        -- apply IH. tauto.
Qed.

(** An attribute. *)
Definition attr_fine (i : N) (kv : str * str) : Prop :=
  plus_free (fst kv) /\ (to_lower (fst kv) = attr_id -> foreign (cut (snd kv)) \/ cut (snd kv) = dec i).
Lemma attr_grows i kv d d' : In i A -> attr_fine i kv -> Forall (bare (dec i)) d ->
  js_exec reparse (js_op (Op (dec i) (SetAttribute (fst kv) (snd kv)))) d = Some d' ->
  grows [] d d' /\ Forall (bare (dec i)) d' /\ (to_lower (fst kv) = attr_id -> In (cut (snd kv)) (flat_map nids d')).
Proof.
  intros Hi [Hp Hv] B H. apply ex_attr in H; [|exact Hp]. destruct kv as [k v]. cbn [fst snd] in *.
  assert (forall w, foreign w -> w <> dec i) as Hw. { intros w F ->. apply F. now apply in_map. }
  assert (forall a, to_lower k = attr_id -> get attr_id (insert (to_lower k) (cut v) a) = Some (cut v)) as G1. { intros a ->. now rewrite get_insert, str_eqb_refl. }
  assert (forall a, to_lower k <> attr_id -> get attr_id (insert (to_lower k) (cut v) a) = get attr_id a) as G2. { intros a Hk. rewrite get_insert. destruct (str_eqb attr_id (to_lower k)) eqn:X; [apply str_eqb_eq in X; congruence|reflexivity]. }
  destruct (str_eqb (to_lower k) attr_id) eqn:Ek; [apply str_eqb_eq in Ek|assert (to_lower k <> attr_id) as Ek' by (intros X; apply str_eqb_eq in X; congruence)].
  - split; [split|split].
    + intros w X. apply (edit_ids (fun w => w = cut v) _ _ _ H) in X; [|].
      * destruct X as [X| ->]; [auto|]. destruct (Hv Ek) as [F| ->]; [auto|]. left. apply (edit_has_id _ (dec i)) with (2 := H). intros x r (t & a & l & kids & -> & Ha & _). now apply has_id_get.
      * intros x r (t & a & l & kids & -> & Ha & ->) u. cbn [flat_map nids]. rewrite app_nil_r, Ha, (G1 a Ek), !in_app_iff. cbn. intuition congruence.
    + intros w F. apply (edit_keeps foreign _ _ _ H); [|exact F]. intros x r (t & a & l & kids & -> & Ha & ->) u Fu. cbn [flat_map nids]. rewrite app_nil_r, Ha, (G1 a Ek), !in_app_iff.
      intros [[X|[]]|X]; [|tauto]. exfalso. now apply (Hw u Fu).
    + revert B. apply (edit_bare _ _ _ _ H). intros x r (t & a & l & kids & -> & Ha & ->). split; [cbn [nids]; rewrite Ha; now left|].
      intros Bx. inversion Bx as [|? ? ? ? B1 B2]; subst. constructor; [|constructor]. constructor; auto.
    + intros _. clear -H G1 Ek. induction H as [l1 n r l2 (t & a & l & kids & -> & Ha & ->)|l1 t a l kids k' l2 E IH]; rewrite flat_map_app, in_app_iff; right; cbn [flat_map app nids]; apply in_or_app; left.
      * apply in_or_app. left. rewrite (G1 a Ek). now left.
      * apply in_or_app. now right.
  - split; [split|split; [|intros X; contradiction]].
    + intros w X. apply (edit_ids (fun _ => False) _ _ _ H) in X; [tauto|].
      intros x r (t & a & l & kids & -> & Ha & ->) u. cbn [flat_map nids]. rewrite app_nil_r, (G2 a Ek'). auto.
    + intros w F. apply (edit_keeps foreign _ _ _ H); [|exact F]. intros x r (t & a & l & kids & -> & Ha & ->) u Fu. cbn [flat_map nids]. rewrite app_nil_r, (G2 a Ek'). auto.
    + revert B. apply (edit_bare _ _ _ _ H). intros x r (t & a & l & kids & -> & Ha & ->). split; [cbn [nids]; rewrite Ha; now left|].
      intros Bx. inversion Bx as [|? ? ? ? B1 B2]; subst. constructor; [|constructor]. constructor; auto.
Qed.
Lemma attrs_grow i kvs : In i A -> Forall (attr_fine i) kvs -> forall d d', Forall (bare (dec i)) d ->
  js_run reparse (map js_op (map (fun kv => Op (dec i) (SetAttribute (fst kv) (snd kv))) kvs)) d = (d', true) ->
  grows [] d d' /\ Forall (bare (dec i)) d' /\
  forall kv, In kv kvs -> to_lower (fst kv) = attr_id -> foreign (cut (snd kv)) -> In (cut (snd kv)) (flat_map nids d').
Proof.
  intros Hi F. induction F as [|kv kvs H _ IH]; intros d d' B; cbn [map js_run].
  - intros [= <-]. split; [apply grows_refl|]. split; [exact B|]. easy.
  - destruct (js_exec _ _ d) as [d1|] eqn:E; [|discriminate]. intros H1. destruct (attr_grows i kv d d1 Hi H B E) as (G1 & B1 & X1). destruct (IH d1 d' B1 H1) as (G2 & B2 & X2).
    split; [exact (grows_app [] [] _ _ _ G1 G2)|]. split; [exact B2|]. intros kv' [<-|Hk] Ek Fk; [|now apply X2]. apply G2; auto.
Qed.

(** Listeners and text. *)
Lemma attach_grows i nm ev d d' : Forall (bare (dec i)) d -> js_exec reparse (js_op (Op (dec i) (AttachListener nm ev))) d = Some d' ->
  grows [] d d' /\ Forall (bare (dec i)) d'.
Proof.
  intros B H. apply ex_attach in H. split; [split|].
  - intros w X. apply (edit_ids (fun _ => False) _ _ _ H) in X; [tauto|].
    intros x r (t & a & l & l' & kids & -> & Ha & ->) u. cbn [flat_map nids]. rewrite app_nil_r. auto.
  - intros w F. apply (edit_keeps foreign _ _ _ H); [|exact F]. intros x r (t & a & l & l' & kids & -> & Ha & ->) u Fu. cbn [flat_map nids]. rewrite app_nil_r. auto.
  - revert B. apply (edit_bare _ _ _ _ H). intros x r (t & a & l & l' & kids & -> & Ha & ->). split; [cbn [nids]; rewrite Ha; now left|].
    intros Bx. inversion Bx as [|? ? ? ? B1 B2]; subst. constructor; [|constructor]. constructor; auto.
Qed.
Lemma attaches_grow i ls : forall d d', Forall (bare (dec i)) d ->
  js_run reparse (map js_op (map (fun l => Op (dec i) (AttachListener (l_name l) (l_event l))) ls)) d = (d', true) -> grows [] d d' /\ Forall (bare (dec i)) d'.
Proof.
  induction ls as [|l ls IH]; intros d d' B; cbn [map js_run].
  - intros [= <-]. split; [apply grows_refl|exact B].
  - destruct (js_exec _ _ d) as [d1|] eqn:E; [|discriminate]. intros H1. destruct (attach_grows i _ _ d d1 B E) as (G1 & B1). destruct (IH d1 d' B1 H1) as (G2 & B2).
    split; [exact (grows_app [] [] _ _ _ G1 G2)|exact B2].
Qed.
Lemma text_grows i v d d' : Forall (bare (dec i)) d -> js_exec reparse (js_op (Op (dec i) (SetText v))) d = Some d' -> grows [] d d'.
Proof.
  intros B H. apply ex_text in H. split.
  - intros w X. apply (edit_ids (fun _ => False) _ _ _ H) in X; [tauto|].
    intros x r (t & a & l & kids & -> & Ha & ->) u. cbn [flat_map nids]. rewrite app_nil_r, text_nids, app_nil_r, in_app_iff. auto.
  - intros w F Hw. revert B Hw. clear F. induction H as [l1 n r l2 (t & a & l & kids & -> & Ha & ->)|l1 t a l kids k' l2 E IH]; intros B; apply Forall_app in B as [_ B]; inversion B as [|? ? B1 _]; subst; inversion B1 as [|? ? ? ? B2 B3]; subst;
      rewrite !flat_map_app; cbn [flat_map nids app]; rewrite !in_app_iff.
    + rewrite (B2 Ha), text_nids. cbn [In]. tauto.
    + specialize (IH B3). tauto.
Qed.

(** A whole tree. *)
Lemma paint_ids e : every (fun x => Forall (attr_fine (el_id x)) (el_attrs x)) e -> incl (ids e) A -> NoDup (ids e) ->
  forall p d d', (forall j, In j (ids e) -> ~ In (dec j) (flat_map nids d)) ->
  js_run reparse (map js_op (create_from_scratch e p)) d = (d', true) ->
  grows (ids e) d d' /\
  forall q x kv, at_path q e = Some x -> In kv (el_attrs x) -> to_lower (fst kv) = attr_id -> foreign (cut (snd kv)) -> In (cut (snd kv)) (flat_map nids d').
Proof.
  induction e as [i nm a l cs t k IH] using element_ind2. intros Hw Hi Hn p d d' Hf H.
  pose proof (every_root _ _ Hw) as H1. pose proof (every_children _ _ Hw) as H2. cbn [el_attrs el_children el_id] in H1, H2. clear Hw.
  change (ids (Element i nm a l cs t k)) with (i :: ids_of cs) in *.
  cbn [create_from_scratch] in H. rewrite !map_app in H. cbn [map] in H.
  apply run_split in H as (d1 & R1 & H). apply run_split in H as (d2 & R2 & H). apply run_split in H as (d3 & R3 & H). apply run_split in H as (d4 & R4 & H).
  apply run_one in R1. apply create_grows in R1 as [G1 B1]; [|apply Hf; now left].
  assert (In i A) as Ai by (apply Hi; now left).
  destruct (attrs_grow i a Ai H1 d1 d2 B1 R2) as (G2 & B2 & X2). destruct (attaches_grow i l d2 d3 B2 R3) as (G3 & B3).
  assert (grows [] d3 d4) as G4. { destruct t as [v|]; cbn [map] in R4; [apply run_one in R4; now apply (text_grows i v)|injection R4 as <-; apply grows_refl]. }
  pose proof (grows_app _ _ _ _ _ (grows_app _ _ _ _ _ (grows_app _ _ _ _ _ G1 G2) G3) G4) as G. cbn [app] in G.
  assert (forall cs', Forall (fun e => every (fun x => Forall (attr_fine (el_id x)) (el_attrs x)) e -> incl (ids e) A -> NoDup (ids e) ->
      forall p d d', (forall j, In j (ids e) -> ~ In (dec j) (flat_map nids d)) ->
      js_run reparse (map js_op (create_from_scratch e p)) d = (d', true) ->
      grows (ids e) d d' /\
      forall q x kv, at_path q e = Some x -> In kv (el_attrs x) -> to_lower (fst kv) = attr_id -> foreign (cut (snd kv)) -> In (cut (snd kv)) (flat_map nids d')) cs' ->
    Forall (every (fun x => Forall (attr_fine (el_id x)) (el_attrs x))) cs' -> incl (ids_of cs') A -> NoDup (ids_of cs') ->
    forall d d', (forall j, In j (ids_of cs') -> ~ In (dec j) (flat_map nids d)) ->
    js_run reparse (map js_op ((fix go (l : list element) := match l with [] => [] | c :: l' => create_from_scratch c (Some (dec i)) ++ go l' end) cs')) d = (d', true) ->
    grows (ids_of cs') d d' /\
    forall c q x kv, In c cs' -> at_path q c = Some x -> In kv (el_attrs x) -> to_lower (fst kv) = attr_id -> foreign (cut (snd kv)) -> In (cut (snd kv)) (flat_map nids d')) as K.
  { clear. induction cs' as [|c cs IHc]; intros F W Hi Hn d d' Hf H.
    - cbn in H. injection H as <-. split; [apply grows_refl|easy].
    - inversion F as [|? ? F1 F2]; subst. inversion W as [|? ? W1 W2]; subst. rewrite ids_of_cons in *. rewrite map_app in H. apply run_split in H as (d1 & R1 & R2).
      apply nodup_app_iff in Hn as (N1 & N2 & D).
      destruct (F1 W1 (fun x Hx => Hi x (in_or_app _ _ _ (or_introl Hx))) N1 (Some (dec i)) d d1 (fun j Hj => Hf j (in_or_app _ _ _ (or_introl Hj))) R1) as [G1 X1].
      assert (forall j, In j (ids_of cs) -> ~ In (dec j) (flat_map nids d1)) as Hf1.
      { intros j Hj X. destruct (proj1 G1 _ X) as [Y|[Y|Y]].
        - apply (Hf j); [apply in_or_app; now right|exact Y].
        - apply in_map_dec in Y. exact (D j Y Hj).
        - apply Y. apply in_map. apply Hi. apply in_or_app. now right. }
      destruct (IHc F2 W2 (fun x Hx => Hi x (in_or_app _ _ _ (or_intror Hx))) N2 d1 d' Hf1 R2) as [G2 X2].
      split; [exact (grows_app _ _ _ _ _ G1 G2)|]. intros c' q x kv [<-|Hc] Hq Hk Ek Fk; [|eauto]. apply G2; [exact Fk|eauto]. }
  inversion Hn as [|? ? N1 N2]; subst.
  assert (forall j, In j (ids_of cs) -> ~ In (dec j) (flat_map nids d4)) as Hf4.
  { intros j Hj X. destruct (proj1 G _ X) as [Y|[[Y|[]]|Y]].
    - apply (Hf j); [now right|exact Y].
    - apply dec_inj in Y. subst. contradiction.
    - apply Y. apply in_map, Hi. now right. }
  destruct (K cs IH H2 (fun x Hx => Hi x (or_intror Hx)) N2 d4 d' Hf4 H) as [G5 X5].
  split; [exact (grows_app _ _ _ _ _ G G5)|]. intros [|n q] x kv Hq Hk Ek Fk.
  - cbn [at_path] in Hq. injection Hq as <-. cbn [el_attrs] in Hk. apply G5; [exact Fk|]. apply G4; [exact Fk|]. apply G3; [exact Fk|]. now apply X2.
  - cbn [at_path el_children] in Hq. destruct (nth_error cs n) as [c|] eqn:En; [|discriminate]. apply nth_error_In in En. eauto.
Qed.
End Paint.

(** ** An id attribute that repeats the element's id changes nothing. *)
Fixpoint strip (e : element) : element :=
  match e with Element i n a l cs t k => Element i n (remove attr_id a) l (map strip cs) t k end.
Definition own_ids : element -> Prop := every (fun e => forall v, In (attr_id, v) (el_attrs e) -> cut v = dec (el_id e)).
Lemma insert_id (a : hmap str) k v : get k a = Some v -> insert k v a = a.
Proof.
  induction a as [|[k1 v1] a IH]; cbn [get insert]; [discriminate|]. destruct (str_eqb k k1) eqn:E; [intros [= ->]; reflexivity|]. intros H. now rewrite IH.
Qed.
Lemma edit_noop i f : (forall n, has_id i n = true -> f n = Some [n]) -> forall d, In i (flat_map nids d) -> by_id i f d = Some d.
Proof.
  intros Hf. assert (forall n, In i (nids n) -> edit_node i f n = Some (Some [n])) as G.
  { induction n as [s|t a l kids IH] using node_ind2; intros H; [destruct H|]. rewrite edit_node_eq. destruct (has_id i (Elem t a l kids)) eqn:E; [now rewrite Hf|].
    assert (In i (flat_map nids kids)) as Hk.
    { cbn [nids] in H. apply in_app_or in H as [H|H]; [|exact H]. exfalso. unfold has_id in E. cbn [node_id] in E. destruct (get attr_id a) as [j|]; [|easy]. destruct H as [->|[]]. now rewrite str_eqb_refl in E. }
    assert (edit_nodes i f kids = Some (Some kids)) as ->; [|reflexivity]. clear E H. induction IH as [|c kids Hc _ IHk]; [destruct Hk|].
    cbn [edit_nodes flat_map] in *. destruct (In_dec (list_eq_dec Byte.byte_eq_dec) i (nids c)) as [Y|Y]; [now rewrite (Hc Y)|].
    rewrite (edit_none i f c Y). apply in_app_or in Hk as [Hk|Hk]; [contradiction|]. now rewrite (IHk Hk). }
  intros d. unfold by_id. induction d as [|c kids IHk]; intros Hk; [destruct Hk|].
  cbn [edit_nodes flat_map] in *. destruct (In_dec (list_eq_dec Byte.byte_eq_dec) i (nids c)) as [Y|Y]; [now rewrite (G c Y)|].
  rewrite (edit_none i f c Y). apply in_app_or in Hk as [Hk|Hk]; [contradiction|]. specialize (IHk Hk). destruct (edit_nodes i f kids) as [[x|]|]; try discriminate. congruence.
Qed.
Section Own.
Context (reparse : str -> str -> list node -> list node).
Lemma own_noop i v d : cut v = dec i -> In (dec i) (flat_map nids d) -> js_exec reparse (js_op (Op (dec i) (SetAttribute attr_id v))) d = Some d.
Proof.
  intros Hv Hd. transitivity (by_id (dec i) (fun n => match n, part 0 (attr_id ++ plus :: v) with
        | Elem t a l kids, Some k0 =>
            if valid_name k0
            then Some [Elem t (insert (to_lower k0) (match part 1 (attr_id ++ plus :: v) with Some v => v | None => bs "undefined" end) a) l kids]
            else None
        | _, _ => None end) d); [reflexivity|].
  assert (plus_free attr_id) as Hp. { intros X. vm_compute in X. destruct X as [X|[X|[]]]; discriminate. }
  rewrite part0, part1_cut by exact Hp. apply edit_noop; [|exact Hd]. intros [s|t a l kids] H; [discriminate|]. apply has_id_get in H.
  change (valid_name attr_id) with true. cbv iota. change (to_lower attr_id) with attr_id. now rewrite Hv, insert_id.
Qed.
Lemma attrs_same i kvs : Forall (fun kv => fst kv <> attr_id -> clean_name (fst kv)) kvs -> (forall v, In (attr_id, v) kvs -> cut v = dec i) ->
  forall d, In (dec i) (flat_map nids d) ->
  js_run reparse (map js_op (map (fun kv => Op (dec i) (SetAttribute (fst kv) (snd kv))) kvs)) d =
  js_run reparse (map js_op (map (fun kv => Op (dec i) (SetAttribute (fst kv) (snd kv))) (remove attr_id kvs))) d.
Proof.
  intros F. induction F as [|[k v] kvs H _ IH]; intros Ho d Hd; [reflexivity|]. cbn [fst] in H. cbn [remove map fst snd]. destruct (str_eqb attr_id k) eqn:E.
  - apply str_eqb_eq in E. subst k. cbn [js_run]. rewrite own_noop; [|apply Ho; now left|exact Hd]. apply IH; [|exact Hd]. intros w Hw. apply Ho. now right.
  - cbn [map js_run fst snd]. destruct (js_exec reparse _ d) as [d1|] eqn:E1; [|reflexivity]. apply IH; [intros w Hw; apply Ho; now right|].
    assert (k <> attr_id) as Hk. { intros ->. now rewrite str_eqb_refl in E. } specialize (H Hk). apply ex_attr in E1; [|exact (name_plus_free _ (proj1 H))].
    apply (edit_keeps (fun _ => True) _ _ _ E1); [|exact Logic.I|exact Hd]. intros x r (t & a & l & kids & -> & _ & ->) u _. cbn [flat_map nids]. rewrite app_nil_r, (proj2 H), get_insert, E. auto.
Qed.
Lemma strip_same e : every (fun x => Forall (fun kv => fst kv <> attr_id -> clean_name (fst kv)) (el_attrs x)) e -> own_ids e ->
  forall p d, js_run reparse (map js_op (create_from_scratch e p)) d = js_run reparse (map js_op (create_from_scratch (strip e) p)) d.
Proof.
  induction e as [i nm a l cs t k IH] using element_ind2. intros Hc Ho p d.
  pose proof (every_root _ _ Hc) as H1. pose proof (every_children _ _ Hc) as H2. pose proof (every_root _ _ Ho) as H3. pose proof (every_children _ _ Ho) as H4.
  cbn [el_attrs el_children el_id] in *. cbn [strip create_from_scratch]. rewrite !map_app, !run_app. cbn [map js_run].
  destruct (js_exec reparse (js_op (Op (dec i) (CreateTag nm p))) d) as [d1|] eqn:E1; [|reflexivity].
  assert (In (dec i) (flat_map nids d1)) as Hd.
  { apply ex_create in E1 as [[m ->]|[m E]].
    - rewrite flat_map_app. apply in_or_app. right. now left.
    - clear -E. induction E as [l1 n r l2 (t & a & l & kids & -> & ->)|l1 t a l kids k' l2 E IH]; rewrite flat_map_app, in_app_iff; right; cbn [flat_map app nids]; apply in_or_app; left; apply in_or_app; right; [|exact IH].
      rewrite flat_map_app. apply in_or_app. right. now left. }
  rewrite run_app, (run_app reparse (map js_op (map _ (remove attr_id a)))), (attrs_same i a H1 H3 d1 Hd). destruct (js_run reparse (map js_op _) d1) as [d2 [|]]; [|reflexivity].
  rewrite !run_app. destruct (js_run reparse (map js_op (map _ l)) d2) as [d3 [|]]; [|reflexivity].
  rewrite !run_app. destruct (js_run reparse (map js_op (match t with Some v => _ | None => _ end)) d3) as [d4 [|]]; [|reflexivity].
  clear -IH H2 H4. revert d4. induction IH as [|c cs Hx _ IHc]; intros d; [reflexivity|]. inversion H2; subst. inversion H4; subst. cbn [map]. rewrite !map_app, !run_app.
  rewrite Hx by assumption. destruct (js_run reparse _ d) as [d1 [|]]; [|reflexivity]. now apply IHc.
Qed.
End Own.
Lemma strip_ids e : ids (strip e) = ids e.
Proof.
  induction e as [i nm a l cs t k IH] using element_ind2. change (i :: ids_of (map strip cs) = i :: ids_of cs). f_equal.
  induction IH as [|c cs Hc _ IHc]; [reflexivity|]. cbn [map]. now rewrite !ids_of_cons, Hc, IHc.
Qed.
Lemma strip_displays e : forall y, displays y (strip e) <-> displays y e.
Proof.
  induction e as [i nm a l cs t k IH] using element_ind2. intros y. cbn [strip].
  assert (forall kids, Forall2 displays kids (map strip cs) <-> Forall2 displays kids cs) as Ek.
  { clear -IH. induction IH as [|c cs Hc _ IHc]; intros kids; [reflexivity|]. split; intros H; inversion H; subst; constructor; try (now apply Hc); now apply IHc. }
  split; intros H; inversion H as [? ? ? ? ? ? ? m kids G1 G2 G3]; subst; constructor; auto; try (now apply Ek).
  - intros q Hq. rewrite (G2 q Hq), get_remove. destruct (str_eqb q attr_id) eqn:E; [apply str_eqb_eq in E; contradiction|reflexivity].
  - intros q Hq. rewrite (G2 q Hq), get_remove. destruct (str_eqb q attr_id) eqn:E; [apply str_eqb_eq in E; contradiction|reflexivity].
Qed.
Lemma every_impl (P Q : element -> Prop) e : (forall x, P x -> Q x) -> every P e -> every Q e.
Proof.
  intros H. induction e as [i nm a l cs t k IH] using element_ind2. intros Hw. pose proof (every_root _ _ Hw) as H1. pose proof (every_children _ _ Hw) as H2. constructor; [now apply H|].
  cbn [el_children] in *. apply Forall_forall. intros c Hc. rewrite Forall_forall in IH, H2. auto.
Qed.
Lemma strip_every (P Q : element -> Prop) e : (forall x, P x -> Q (strip x)) -> every P e -> every Q (strip e).
Proof.
  intros H. induction e as [i nm a l cs t k IH] using element_ind2. intros Hw. pose proof (every_root _ _ Hw) as H1. pose proof (every_children _ _ Hw) as H2.
  apply H in H1. cbn [strip] in *. constructor; [exact H1|].
  cbn [el_children] in *. apply Forall_forall. intros c Hc. apply in_map_iff in Hc as (c0 & <- & Hc). rewrite Forall_forall in IH, H2. auto.
Qed.
Lemma in_removed k k0 (a : hmap str) kv : In kv (remove k a) -> In kv a /\ (k0 = k -> fst kv <> k0).
Proof.
  intros H. induction a as [|[k1 v1] a IH]; [destruct H|]. cbn [remove] in H. destruct (str_eqb k k1) eqn:E.
  - destruct (IH H). split; [now right|assumption].
  - destruct H as [<-|H]; [|destruct (IH H); split; [now right|assumption]]. split; [now left|]. intros ->. cbn [fst]. intros ->. now rewrite str_eqb_refl in E.
Qed.
