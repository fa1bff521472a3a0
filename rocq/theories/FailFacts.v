(** FailFacts.v: node creation that may fail, compared with the creation of nodes
    in BinaryNode.v and NaryNode.v. *)
From Verif Require Import Base StructNode BinaryNode NaryNode Nav Policy Tree Fail.

Section Agree.
  Context {Nd : Type}.
  Variable late : bool.
  Notation heap := (gmap addr Nd).
  Variable links : Nd -> list ptr.
  Variable h0 : heap.

  (** A pointer that does not lead to a node of [h0]. *)
  Definition newp (p : ptr) : Prop := forall a, p = Some a -> h0 !! a = None.
  (** The nodes of [h0] are untouched, the others point to new nodes only. *)
  Definition inv (h : heap) : Prop :=
    (forall x o, h0 !! x = Some o -> h !! x = Some o) /\
    (forall x o, h !! x = Some o -> h0 !! x = None -> Forall newp (links o)).

  Definition agrees {A} (m : attempt heap A) (f : heap -> res (A * heap)) (Q : A -> Prop) : Prop :=
    forall h, inv h -> match f h with
    | Err _ => True
    | Ok (x, h') => inv h' /\ Q x /\ exists n, size h' = size h + n /\
        (forall k, n <= k -> m h k = Made x h' (k - n)) /\
        (forall k, k < n -> exists h2, m h k = Lost h2 /\ inv h2 /\ size h2 = size h + k + (if late then 1 else 0))
    end.

  Lemma agrees_bind {A B} (m : attempt heap A) f (g : A -> attempt heap B) fg Q Q' :
    agrees m f Q -> (forall x, Q x -> agrees (g x) (fg x) Q') -> agrees (then_ m g) (fun h => '(x, h') ← f h; fg x h') Q'.
  Proof.
    intros Hm Hg h Hi. specialize (Hm h Hi). destruct (f h) as [[x h']|]; [|exact I]. cbn [mbind res_bind].
    destruct Hm as (Hi' & Hq & n & Hn & H1 & H2). specialize (Hg x Hq h' Hi'). destruct (fg x h') as [[y h2]|]; [|exact I].
    destruct Hg as (Hi2 & Hq' & n2 & Hn2 & G1 & G2). split; [exact Hi2|]. split; [exact Hq'|]. exists (n + n2). split; [lia|]. split.
    - intros k Hk. unfold then_. rewrite H1 by lia. rewrite G1 by lia. f_equal. lia.
    - intros k Hk. unfold then_. destruct (decide (n <= k)) as [Hle|Hle].
      + rewrite H1 by exact Hle. destruct (G2 (k - n)) as (h3 & E & Hi3 & Hs); [lia|]. exists h3. split; [exact E|]. split; [exact Hi3|lia].
      + destruct (H2 k) as (h3 & E & Hi3 & Hs); [lia|]. rewrite E. exists h3. auto.
  Qed.
  Lemma agrees_give {A} (x : A) (Q : A -> Prop) : Q x -> agrees (give x) (fun h => Ok (x, h)) Q.
  Proof.
    intros Hq h Hi. cbn. split; [exact Hi|]. split; [exact Hq|]. exists 0. split; [lia|]. split; [|intros k Hk; lia].
    intros k _. unfold give. rewrite Nat.sub_0_r. reflexivity.
  Qed.
  Lemma agrees_read {A B} (r : heap -> res A) (g : A -> attempt heap B) fg Q :
    (forall x, agrees (g x) (fg x) Q) -> agrees (then_ (reading r) g) (fun h => x ← r h; fg x h) Q.
  Proof.
    intros Hg h Hi. destruct (r h) as [x|] eqn:E; [|exact I]. cbn [mbind res_bind]. specialize (Hg x h Hi).
    destruct (fg x h) as [[y h']|]; [|exact I]. destruct Hg as (Hi' & Hq & n & Hn & H1 & H2). split; [exact Hi'|]. split; [exact Hq|].
    exists n. split; [exact Hn|]. unfold then_, reading. rewrite E. auto.
  Qed.
  Lemma agrees_write {B} (f : heap -> res heap) (g : unit -> attempt heap B) fg Q :
    (forall h h', inv h -> f h = Ok h' -> inv h' /\ size h' = size h) -> agrees (g ()) fg Q ->
    agrees (then_ (writing f) g) (fun h => h' ← f h; fg h') Q.
  Proof.
    intros Hf Hg h Hi. destruct (f h) as [h'|] eqn:E; [|exact I]. cbn [mbind res_bind]. destruct (Hf h h' Hi E) as [Hi' Hs].
    specialize (Hg h' Hi'). destruct (fg h') as [[y h2]|]; [|exact I]. destruct Hg as (Hi2 & Hq & n & Hn & H1 & H2). split; [exact Hi2|].
    split; [exact Hq|]. exists n. split; [lia|]. unfold then_, writing. rewrite E. rewrite <- Hs. auto.
  Qed.
  Lemma inv_alloc (al : allocator Nd) h o : inv h -> Forall newp (links o) -> inv (<[new_addr al h := o]> h) /\ h0 !! new_addr al h = None.
  Proof.
    intros [H1 H2] Ho. pose proof (new_addr_fresh al h) as Hf.
    assert (Hn : h0 !! new_addr al h = None). { destruct (h0 !! new_addr al h) as [o'|] eqn:E; [|reflexivity]. apply H1 in E. congruence. }
    split; [|exact Hn]. split.
    - intros x o' Hx. rewrite lookup_insert_ne; [apply H1, Hx|]. intros <-. congruence.
    - intros x o' Hx Hx0. apply lookup_insert_Some in Hx as [[<- <-]|[_ Hx]]; [exact Ho|]. eapply H2; eassumption.
  Qed.
  Lemma agrees_create {B} (al : allocator Nd) o (g : addr -> attempt heap B) fg Q :
    Forall newp (links o) -> (forall a, h0 !! a = None -> agrees (g a) (fg a) Q) ->
    agrees (then_ (creating late (fun h => (new_addr al h, <[new_addr al h := o]> h))) g)
      (fun h => fg (new_addr al h) (<[new_addr al h := o]> h)) Q.
  Proof.
    intros Ho Hg h Hi. destruct (inv_alloc al h o Hi Ho) as [Hi' Hn]. specialize (Hg _ Hn _ Hi').
    assert (Hsz : size (<[new_addr al h := o]> h) = S (size h)) by (rewrite map_size_insert, (new_addr_fresh al h); reflexivity).
    destruct (fg _ _) as [[y h2]|]; [|exact I]. destruct Hg as (Hi2 & Hq & n & Hs & H1 & H2). split; [exact Hi2|]. split; [exact Hq|].
    exists (S n). split; [lia|]. split.
    - intros k Hk. destruct k as [|k]; [lia|]. unfold then_, creating. cbn [fst snd]. rewrite H1 by lia. reflexivity.
    - intros k Hk. destruct k as [|k]; unfold then_, creating; cbn [fst snd].
      + eexists. split; [reflexivity|]. destruct late; cbn [snd]; [split; [exact Hi'|lia]|split; [exact Hi|lia]].
      + destruct (H2 k) as (h3 & E & Hi3 & Hs3); [lia|]. exists h3. rewrite E. split; [reflexivity|]. split; [exact Hi3|]. lia.
  Qed.
  Lemma inv_update h p f h' : inv h -> newp p -> (forall o, Forall newp (links o) -> Forall newp (links (f o))) -> update h p f = Ok h' ->
    inv h' /\ size h' = size h.
  Proof.
    intros [H1 H2] Hp Hf E. destruct p as [a|]; [|discriminate]. unfold update in E. destruct (h !! a) as [o|] eqn:Ea; [|discriminate]. injection E as <-.
    specialize (Hp a eq_refl). split; [|rewrite map_size_insert, Ea; reflexivity]. split.
    - intros x o' Hx. rewrite lookup_insert_ne; [apply H1, Hx|]. intros <-. congruence.
    - intros x o' Hx Hx0. apply lookup_insert_Some in Hx as [[<- <-]|[_ Hx]]; [|eapply H2; eassumption]. apply Hf. eapply H2; eassumption.
  Qed.
  Lemma agrees_mono {A} (m m' : attempt heap A) f f' Q : agrees m f Q -> (forall h, f' h = f h) -> (forall h k, m' h k = m h k) -> agrees m' f' Q.
  Proof.
    intros H Hf Hm h Hi. specialize (H h Hi). rewrite Hf. destruct (f h) as [[x h']|]; [|exact I]. destruct H as (Hi' & Hq & n & Hs & H1 & H2).
    split; [exact Hi'|]. split; [exact Hq|]. exists n. split; [exact Hs|]. split; intros k Hk; rewrite Hm; auto.
  Qed.
  (** An optional part. *)
  Lemma agrees_opt (m : attempt heap addr) f : agrees m f (fun a => h0 !! a = None) ->
    agrees (then_ m (fun x => give (Some x))) (fun h => '(x, h') ← f h; Ok (Some x, h')) newp.
  Proof.
    intros H. refine (agrees_bind m f (fun x => give (Some x)) (fun x h' => Ok (Some x, h')) _ newp H _). intros x Hx.
    apply agrees_give. intros a [= <-]. exact Hx.
  Qed.
  Lemma newp_none : newp None.
  Proof. intros a [=]. Qed.
  Lemma newp_some a : h0 !! a = None -> newp (Some a).
  Proof. intros H b [= <-]. exact H. Qed.
  Lemma inv_self : inv h0.
  Proof. split; [auto|]. intros x o H1 H2. congruence. Qed.
End Agree.

Section Binary.
  Context {V : Type}.
  Variable late : bool.
  Variable al : allocator (bnode V).
  Variable h0 : gmap addr (bnode V).
  Definition blinks (o : bnode V) : list ptr := [bparent o; bleft o; bright o].
  Notation agrees := (agrees late blinks h0).
  Notation new := (fun a => h0 !! a = None).

  Lemma b_attach_inv h a h' : inv blinks h0 h -> h0 !! a = None -> b_attach_children h a = Ok h' -> inv blinks h0 h' /\ size h' = size h.
  Proof.
    intros Hi Ha E. unfold b_attach_children in E. destruct (deref h (Some a)) as [n|] eqn:En; [|discriminate]. cbn [mbind res_bind] in E.
    assert (Hl : Forall (newp h0) (blinks n)). { unfold deref in En. destruct (h !! a) as [o|] eqn:Eo; [|discriminate]. injection En as <-. eapply (proj2 Hi); eassumption. }
    unfold blinks in Hl. rewrite !Forall_cons in Hl. destruct Hl as (_ & Hl & Hr & _).
    assert (Hset : forall o : bnode V, Forall (newp h0) (blinks o) -> Forall (newp h0) (blinks (bset_parent (Some a) o))).
    { intros o Ho. unfold blinks in *. rewrite !Forall_cons in *. cbn. split; [apply newp_some, Ha|tauto]. }
    destruct (is_null (bleft n)).
    - cbn [mbind res_bind] in E. destruct (is_null (bright n)); [injection E as <-; auto|]. eapply inv_update; [exact Hi|exact Hr|exact Hset|exact E].
    - destruct (update h (bleft n) _) as [h1|] eqn:E1; [|discriminate]. cbn [mbind res_bind] in E.
      destruct (inv_update blinks h0 _ _ _ _ Hi Hl Hset E1) as [Hi1 Hs1].
      destruct (is_null (bright n)); [injection E as <-; auto|]. destruct (inv_update blinks h0 _ _ _ _ Hi1 Hr Hset E) as [Hi2 Hs2]. split; [exact Hi2|lia].
  Qed.
  (** The rest of a constructor once the two subtrees are there. *)
  Lemma b_tail_l a l fg g : h0 !! a = None -> newp h0 l -> agrees (g ()) fg new ->
    agrees (then_ (writing (fun h => update h (Some a) (bset_left l))) g) (fun h => h' ← update h (Some a) (bset_left l); fg h') new.
  Proof.
    intros Ha Hl Hg. apply agrees_write; [|exact Hg]. intros h h' Hi E. eapply inv_update; [exact Hi|apply newp_some, Ha| |exact E].
    intros o Ho. unfold blinks in *. rewrite !Forall_cons in *. cbn. tauto.
  Qed.
  Lemma b_tail_r a r : h0 !! a = None -> newp h0 r ->
    agrees (then_ (writing (fun h => update h (Some a) (bset_right r))) (fun _ => then_ (writing (fun h => b_attach_children h a)) (fun _ => give a)))
      (fun h => h2' ← update h (Some a) (bset_right r); h3 ← b_attach_children h2' a; Ok (a, h3)) new.
  Proof.
    intros Ha Hr. apply agrees_write.
    - intros h h' Hi E. eapply inv_update; [exact Hi|apply newp_some, Ha| |exact E].
      intros o Ho. unfold blinks in *. rewrite !Forall_cons in *. cbn. tauto.
    - apply agrees_write; [|apply agrees_give, Ha]. intros h h' Hi E. eapply b_attach_inv; eassumption.
  Qed.

  Lemma b_rest_agrees (ml mr : attempt (gmap addr (bnode V)) ptr) fl fr a : h0 !! a = None -> agrees ml fl (newp h0) -> agrees mr fr (newp h0) ->
    agrees (then_ ml (fun l => then_ (writing (fun h => update h (Some a) (bset_left l))) (fun _ =>
            then_ mr (fun r => then_ (writing (fun h => update h (Some a) (bset_right r))) (fun _ => then_ (writing (fun h => b_attach_children h a)) (fun _ => give a))))))
      (fun h => '(l, h1) ← fl h; h1' ← update h1 (Some a) (bset_left l); '(r, h2) ← fr h1'; h2' ← update h2 (Some a) (bset_right r); h3 ← b_attach_children h2' a; Ok (a, h3)) new.
  Proof.
    intros Ha Hml Hmr.
    refine (agrees_bind late blinks h0 ml fl _ (fun l h1 => h1' ← update h1 (Some a) (bset_left l); '(r, h2) ← fr h1'; h2' ← update h2 (Some a) (bset_right r); h3 ← b_attach_children h2' a; Ok (a, h3)) _ _ Hml _). intros l Hl.
    refine (b_tail_l a l (fun h => '(r, h2) ← fr h; h2' ← update h2 (Some a) (bset_right r); h3 ← b_attach_children h2' a; Ok (a, h3)) _ Ha Hl _).
    refine (agrees_bind late blinks h0 mr fr _ (fun r h => h2' ← update h (Some a) (bset_right r); h3 ← b_attach_children h2' a; Ok (a, h3)) _ _ Hmr _). intros r Hr.
    apply b_tail_r; assumption.
  Qed.
  Lemma b_copy_agrees fuel : forall src, agrees (b_copy_try late al fuel src) (fun h => b_copy fuel al h src) new.
  Proof.
    induction fuel as [|fuel IH]; intros src; [intros h _; exact I|].
    pose (FL := fun p h => match p with None => Ok (None, h) | Some _ => '(x, h') ← b_copy fuel al h p; Ok (Some x, h') end).
    assert (Hopt : forall p, agrees (match p with None => give None | Some _ => then_ (b_copy_try late al fuel p) (fun x => give (Some x)) end) (FL p) (newp h0)).
    { intros [b|]; [apply agrees_opt, IH|apply agrees_give, newp_none]. }
    cbn [b_copy_try b_copy]. apply agrees_read. intros o. unfold b_alloc.
    refine (agrees_create late blinks h0 al (BNodeR (bval o) None None None) _ (fun a h0' => '(l, h1) ← FL (bleft o) h0'; h1' ← update h1 (Some a) (bset_left l); '(r, h2) ← FL (bright o) h1'; h2' ← update h2 (Some a) (bset_right r); h3 ← b_attach_children h2' a; Ok (a, h3)) new _ _).
    { repeat constructor; apply newp_none. }
    intros a Ha. apply b_rest_agrees; [exact Ha|apply Hopt|apply Hopt].
  Qed.
  Lemma b_struct_agrees' s : agrees (b_struct_try late al s) (fun h => b_from_struct al h s) new /\
    match s with SN _ _ _ _ sib => agrees (b_struct_try late al sib) (fun h => b_from_struct al h sib) new | SNil => True end.
  Proof.
    induction s as [|o b n fc IHf ns IHn]; [split; [intros h _; exact I|exact I]|]. split; [|apply IHn]. destruct o as [v|]; [|intros h _; exact I].
    cbn [b_struct_try b_from_struct]. unfold b_alloc.
    pose (FL := fun h => if is_valid_node fc then '(x, h') ← b_from_struct al h fc; Ok (Some x, h') else Ok (None, h)).
    pose (FR := fun h => match fc with SN _ _ _ _ sib => if is_valid_node sib then '(x, h') ← b_from_struct al h sib; Ok (Some x, h') else Ok (None, h) | SNil => Ok (None, h) end).
    refine (agrees_create late blinks h0 al (BNodeR v None None None) _ (fun a h0' => '(l, h1) ← FL h0'; h1' ← update h1 (Some a) (bset_left l); '(r, h2) ← FR h1'; h2' ← update h2 (Some a) (bset_right r); h3 ← b_attach_children h2' a; Ok (a, h3)) new _ _).
    { repeat constructor; apply newp_none. }
    intros a Ha. apply b_rest_agrees; [exact Ha| |].
    - unfold FL. destruct (is_valid_node fc); [apply agrees_opt, IHf|apply agrees_give, newp_none].
    - unfold FR. destruct fc as [|? ? ? ? sib]; [apply agrees_give, newp_none|]. destruct (is_valid_node sib); [apply agrees_opt, IHf|apply agrees_give, newp_none].
  Qed.
  Lemma b_struct_agrees s : agrees (b_struct_try late al s) (fun h => b_from_struct al h s) new.
  Proof. apply b_struct_agrees'. Qed.
  Lemma b_value_agrees v : agrees (b_value_try late al v) (fun h => Ok (b_alloc al h v)) new.
  Proof.
    eapply agrees_mono; [|reflexivity|].
    - refine (agrees_create late blinks h0 al (BNodeR v None None None) (fun a => give a) (fun a h => Ok (a, h)) new _ _); [repeat constructor; apply newp_none|].
      intros a Ha. apply agrees_give, Ha.
    - intros h [|k]; reflexivity.
  Qed.
End Binary.

Section Nary.
  Context {V : Type}.
  Variable late : bool.
  Variable al : allocator (nnode V).
  Variable h0 : gmap addr (nnode V).
  Definition nlinks (o : nnode V) : list ptr := [nparent o; nprev o; nnext o; nfirst o; nlast o].
  Notation agrees := (agrees late nlinks h0).
  Notation new := (fun a => h0 !! a = None).

  Lemma n_manage_inv h a h' : inv nlinks h0 h -> h0 !! a = None -> n_manage_parent_last_child h a = Ok h' -> inv nlinks h0 h' /\ size h' = size h.
  Proof.
    intros Hi Ha E. unfold n_manage_parent_last_child in E. destruct (deref h (Some a)) as [n|] eqn:En; [|discriminate]. cbn [mbind res_bind] in E.
    assert (Hl : Forall (newp h0) (nlinks n)). { unfold deref in En. destruct (h !! a) as [o|] eqn:Eo; [|discriminate]. injection En as <-. eapply (proj2 Hi); eassumption. }
    unfold nlinks in Hl. rewrite !Forall_cons in Hl. destruct Hl as (Hp & _).
    assert (Hset : forall p, newp h0 p -> forall o : nnode V, Forall (newp h0) (nlinks o) -> Forall (newp h0) (nlinks (nset_last p o))).
    { intros p Hp' o Ho. unfold nlinks in *. rewrite !Forall_cons in *. cbn. tauto. }
    assert (H1 : forall h1, match nparent n, nnext n with Some q, None => update h (Some q) (nset_last (Some a)) | _, _ => Ok h end = Ok h1 ->
      inv nlinks h0 h1 /\ size h1 = size h).
    { intros h1 E1. destruct (nparent n) as [q|] eqn:Eq; [|injection E1 as <-; auto]. destruct (nnext n); [injection E1 as <-; auto|].
      eapply inv_update; [exact Hi|exact Hp|apply Hset, newp_some, Ha|exact E1]. }
    destruct (match nparent n, nnext n with Some q, None => update h (Some q) (nset_last (Some a)) | _, _ => Ok h end) as [h1|]; [|discriminate].
    destruct (H1 h1 eq_refl) as [Hi1 Hs1]. cbn [mbind res_bind] in E. destruct (nfirst n); [injection E as <-; auto|].
    destruct (inv_update nlinks h0 _ _ _ _ Hi1 (newp_some h0 a Ha) (Hset None (newp_none h0)) E) as [Hi2 Hs2]. split; [exact Hi2|lia].
  Qed.
  Lemma n_tail_next a nx fg g : h0 !! a = None -> newp h0 nx -> agrees (g ()) fg new ->
    agrees (then_ (writing (fun h => update h (Some a) (nset_next nx))) g) (fun h => h' ← update h (Some a) (nset_next nx); fg h') new.
  Proof.
    intros Ha Hl Hg. apply agrees_write; [|exact Hg]. intros h h' Hi E. eapply inv_update; [exact Hi|apply newp_some, Ha| |exact E].
    intros o Ho. unfold nlinks in *. rewrite !Forall_cons in *. cbn. tauto.
  Qed.
  Lemma n_tail_manage a : h0 !! a = None ->
    agrees (then_ (writing (fun h => n_manage_parent_last_child h a)) (fun _ => give a)) (fun h => h3 ← n_manage_parent_last_child h a; Ok (a, h3)) new.
  Proof. intros Ha. apply agrees_write; [|apply agrees_give, Ha]. intros h h' Hi E. eapply n_manage_inv; eassumption. Qed.
  Lemma n_tail_first a fc : h0 !! a = None -> newp h0 fc ->
    agrees (then_ (writing (fun h => update h (Some a) (nset_first fc))) (fun _ => then_ (writing (fun h => n_manage_parent_last_child h a)) (fun _ => give a)))
      (fun h => h2' ← update h (Some a) (nset_first fc); h3 ← n_manage_parent_last_child h2' a; Ok (a, h3)) new.
  Proof.
    intros Ha Hr. apply agrees_write; [|apply n_tail_manage, Ha].
    intros h h' Hi E. eapply inv_update; [exact Hi|apply newp_some, Ha| |exact E].
    intros o Ho. unfold nlinks in *. rewrite !Forall_cons in *. cbn. tauto.
  Qed.
  Lemma n_rest_agrees (ml mr : attempt (gmap addr (nnode V)) ptr) fl fr a : h0 !! a = None -> agrees ml fl (newp h0) -> agrees mr fr (newp h0) ->
    agrees (then_ ml (fun l => then_ (writing (fun h => update h (Some a) (nset_next l))) (fun _ =>
            then_ mr (fun r => then_ (writing (fun h => update h (Some a) (nset_first r))) (fun _ => then_ (writing (fun h => n_manage_parent_last_child h a)) (fun _ => give a))))))
      (fun h => '(l, h1) ← fl h; h1' ← update h1 (Some a) (nset_next l); '(r, h2) ← fr h1'; h2' ← update h2 (Some a) (nset_first r); h3 ← n_manage_parent_last_child h2' a; Ok (a, h3)) new.
  Proof.
    intros Ha Hml Hmr.
    refine (agrees_bind late nlinks h0 ml fl _ (fun l h1 => h1' ← update h1 (Some a) (nset_next l); '(r, h2) ← fr h1'; h2' ← update h2 (Some a) (nset_first r); h3 ← n_manage_parent_last_child h2' a; Ok (a, h3)) _ _ Hml _). intros l Hl.
    refine (n_tail_next a l (fun h => '(r, h2) ← fr h; h2' ← update h2 (Some a) (nset_first r); h3 ← n_manage_parent_last_child h2' a; Ok (a, h3)) _ Ha Hl _).
    refine (agrees_bind late nlinks h0 mr fr _ (fun r h => h2' ← update h (Some a) (nset_first r); h3 ← n_manage_parent_last_child h2' a; Ok (a, h3)) _ _ Hmr _). intros r Hr.
    apply n_tail_first; assumption.
  Qed.
  Lemma n_links_ok v parent fs prev : newp h0 parent -> newp h0 prev -> Forall (newp h0) (nlinks (NNodeR v parent fs prev None None None)).
  Proof. intros Hp Hv. unfold nlinks. cbn. rewrite !Forall_cons. repeat split; try assumption; try apply newp_none. apply Forall_nil_2. Qed.
  Lemma n_copy_agrees fuel : forall src parent prev, newp h0 parent -> newp h0 prev ->
    agrees (n_copy_from_try late al fuel src parent prev) (fun h => n_copy_from fuel al h src parent prev) new.
  Proof.
    induction fuel as [|fuel IH]; intros src parent prev Hp Hv; [intros h _; exact I|].
    pose (FL := fun p q r h => match p with None => Ok (None, h) | Some _ => '(x, h') ← n_copy_from fuel al h p q r; Ok (Some x, h') end).
    assert (Hopt : forall p q r, newp h0 q -> newp h0 r -> agrees (match p with None => give None | Some _ => then_ (n_copy_from_try late al fuel p q r) (fun x => give (Some x)) end)
      (FL p q r) (newp h0)).
    { intros [b|] q r Hq Hr; [apply agrees_opt, IH; assumption|apply agrees_give, newp_none]. }
    cbn [n_copy_from_try n_copy_from]. apply agrees_read. intros o. unfold n_alloc.
    refine (agrees_create late nlinks h0 al (NNodeR (nval o) parent (nfsize o) prev None None None) _ (fun a h0' => '(l, h1) ← FL (nnext o) parent (Some a) h0'; h1' ← update h1 (Some a) (nset_next l); '(r, h2) ← FL (nfirst o) (Some a) None h1'; h2' ← update h2 (Some a) (nset_first r); h3 ← n_manage_parent_last_child h2' a; Ok (a, h3)) new _ _).
    { apply n_links_ok; assumption. }
    intros a Ha. apply n_rest_agrees; [exact Ha|apply Hopt; [exact Hp|apply newp_some, Ha]|apply Hopt; [apply newp_some, Ha|apply newp_none]].
  Qed.
  Lemma n_struct_agrees s : forall parent prev, newp h0 parent -> newp h0 prev ->
    agrees (n_struct_from_try late al s parent prev) (fun h => n_from_struct_from al h s parent prev) new.
  Proof.
    induction s as [|o b n fc IHf ns IHn]; intros parent prev Hp Hv; [intros h _; exact I|]. destruct o as [v|]; [|intros h _; exact I].
    pose (FL := fun s q r h => match s with SNil => Ok (None, h) | _ => '(x, h') ← n_from_struct_from al h s q r; Ok (Some x, h') end).
    cbn [n_struct_from_try n_from_struct_from]. unfold n_alloc.
    refine (agrees_create late nlinks h0 al (NNodeR v parent (s_following_siblings (SN (Some v) b n fc ns) mod W64)%N prev None None None) _ (fun a h0' => '(l, h1) ← FL ns parent (Some a) h0'; h1' ← update h1 (Some a) (nset_next l); '(r, h2) ← FL fc (Some a) None h1'; h2' ← update h2 (Some a) (nset_first r); h3 ← n_manage_parent_last_child h2' a; Ok (a, h3)) new _ _).
    { apply n_links_ok; assumption. }
    intros a Ha. apply n_rest_agrees; [exact Ha| |].
    - unfold FL. destruct ns; [apply agrees_give, newp_none|apply agrees_opt, IHn; [exact Hp|apply newp_some, Ha]].
    - unfold FL. destruct fc; [apply agrees_give, newp_none|apply agrees_opt, IHf; [apply newp_some, Ha|apply newp_none]].
  Qed.
  Lemma n_value_agrees v : agrees (n_value_try late al v) (fun h => n_from_value al h v) new.
  Proof.
    unfold n_value_try, n_from_value, n_alloc.
    refine (agrees_create late nlinks h0 al _ _ (fun a h0' => h1 ← n_manage_parent_last_child h0' a; Ok (a, h1)) new _ _).
    { repeat constructor; apply newp_none. }
    intros a Ha. apply n_tail_manage, Ha.
  Qed.
End Nary.
