(** PolicyFacts.v: each traversal policy steps through its order. *)
From Verif Require Import Base Spec RoseFacts RowFacts Nav Policy NavFacts BranchFacts Orders.

Definition st_nil (_ : ptr) (o : list ptr) : Prop := o = [].
Lemma st_nil_fun p o o' : st_nil p o -> st_nil p o' -> o = o'.
Proof. unfold st_nil. congruence. Qed.

Section PolicyFacts.
  Variable nav : navigator.
  Variable t : rose addr.
  Hypothesis Hok : nav_ok nav t.
  Variable F : nat.
  Hypothesis HF : rsize t <= F.

  Lemma nd_post : NoDup (postorder t).
  Proof. rewrite <- pre_post_perm. apply (no_nd _ _ Hok). Qed.
  Lemma nd_level : NoDup (levelorder t).
  Proof. rewrite levelorder_perm. apply (no_nd _ _ Hok). Qed.

  (** *** Pre-order *)
  Lemma pre_steps : order_steps F nav PreOrder (preorder t) st_nil.
  Proof.
    split; [apply (no_nd _ _ Hok)|apply st_nil_fun|]. intros l1 x l2 o HL ->. exists [].
    cbn [increment_impl]. rewrite (pre_increment_ok _ _ Hok F HF _ _ _ HL). split; reflexivity.
  Qed.
  Lemma pre_first : order_first F nav PreOrder (preorder t) st_nil.
  Proof.
    split. intros i o ->. exists []. cbn [go_first_impl]. rewrite (no_root _ _ Hok).
    destruct t; split; reflexivity.
  Qed.
  Lemma pre_back : order_back F nav PreOrder (preorder t) st_nil.
  Proof.
    split. intros l1 x l2 o HL _ ->. exists [].
    cbn [decrement_impl]. rewrite (pre_decrement_ok _ _ Hok F HF _ _ _ HL). split; reflexivity.
  Qed.
  Lemma pre_last : order_last F nav PreOrder (preorder t) st_nil.
  Proof.
    split. intros i o ->. exists []. cbn [go_last_impl]. rewrite (pre_go_last_ok _ _ Hok F HF). split; reflexivity.
  Qed.
  Lemma plain_init k L : k <> BreadthFirst -> order_init F nav k L st_nil.
  Proof. intros Hk p _. exists []. split; [|reflexivity]. destruct k; try reflexivity. congruence. Qed.

  (** *** Post-order *)
  Lemma post_steps : order_steps F nav PostOrder (postorder t) st_nil.
  Proof.
    split; [apply nd_post|apply st_nil_fun|]. intros l1 x l2 o HL ->. exists [].
    cbn [increment_impl]. rewrite (post_increment_ok _ _ Hok F HF _ _ _ HL). split; reflexivity.
  Qed.
  Lemma post_first : order_first F nav PostOrder (postorder t) st_nil.
  Proof.
    split. intros i o ->. exists []. cbn [go_first_impl]. rewrite (post_go_first_ok _ _ Hok F HF). split; reflexivity.
  Qed.
  Lemma post_back : order_back F nav PostOrder (postorder t) st_nil.
  Proof.
    split. intros l1 x l2 o HL Hne ->. exists [].
    cbn [decrement_impl]. rewrite (post_decrement_ok _ _ Hok F HF _ _ _ HL Hne). split; reflexivity.
  Qed.
  Lemma post_last : order_last F nav PostOrder (postorder t) st_nil.
  Proof.
    split. intros i o ->. exists []. cbn [go_last_impl]. rewrite (no_root _ _ Hok).
    destruct t as [a cs]. cbn [postorder label]. rewrite last_snoc. split; reflexivity.
  Qed.

  (** *** Siblings: the children of any node [a] of the tree. *)
  Lemma children_split c a cs l1 x l2 : plug c (Rose a cs) = t ->
    map label cs = l1 ++ x :: l2 ->
    exists ls s rs, cs = ls ++ s :: rs /\ label s = x /\ map label ls = l1 /\ map label rs = l2 /\
      plug ((ls, a, rs) :: c) s = t.
  Proof.
    intros Hp Hm. apply map_eq_app in Hm as (ls & rs' & -> & H1 & H2).
    destruct rs' as [|s rs]; [discriminate|]. cbn in H2. injection H2 as H2 H3.
    exists ls, s, rs. auto.
  Qed.
  Lemma nd_children c a cs : plug c (Rose a cs) = t -> NoDup (map label cs).
  Proof.
    intros Hp. pose proof (no_nd _ _ Hok) as Hnd. rewrite <- Hp in Hnd. apply NoDup_sub in Hnd.
    pose proof (NoDup_row 1 _ Hnd) as H. rewrite row_1 in H. exact H.
  Qed.
  Lemma sib_steps c a cs : plug c (Rose a cs) = t -> order_steps F nav Siblings (map label cs) st_nil.
  Proof.
    intros Hp. split; [apply (nd_children _ _ _ Hp)|apply st_nil_fun|].
    intros l1 x l2 o HL ->. exists [].
    destruct (children_split _ _ _ _ _ _ Hp HL) as (ls & s & rs & -> & <- & <- & <- & Hp2).
    cbn [increment_impl]. rewrite (no_next _ _ Hok _ _ Hp2). cbn [mbind res_bind ctx_next].
    rewrite <- head_map_label. split; reflexivity.
  Qed.
  Lemma sib_back c a cs : plug c (Rose a cs) = t -> order_back F nav Siblings (map label cs) st_nil.
  Proof.
    intros Hp. split. intros l1 x l2 o HL _ ->. exists [].
    destruct (children_split _ _ _ _ _ _ Hp HL) as (ls & s & rs & -> & <- & <- & <- & Hp2).
    cbn [decrement_impl]. rewrite (no_prev _ _ Hok _ _ Hp2). cbn [mbind res_bind ctx_prev].
    rewrite <- last_map_label. split; reflexivity.
  Qed.
  Lemma sib_first : order_first F nav Siblings (map label (children t)) st_nil.
  Proof.
    split. intros i o ->. exists []. cbn [go_first_impl]. rewrite (no_root _ _ Hok).
    rewrite (no_first _ _ Hok [] t eq_refl). cbn [mbind res_bind]. rewrite <- head_map_label. split; reflexivity.
  Qed.
  Lemma sib_last : order_last F nav Siblings (map label (children t)) st_nil.
  Proof.
    split. intros i o ->. exists []. cbn [go_last_impl]. rewrite (no_root _ _ Hok).
    rewrite (no_last _ _ Hok [] t eq_refl). cbn [mbind res_bind]. rewrite <- last_map_label. split; reflexivity.
  Qed.
  (** The root alone is a sibling list too. *)
  Lemma sib_root_steps : order_steps F nav Siblings [label t] st_nil.
  Proof.
    split; [apply NoDup_singleton|apply st_nil_fun|]. intros l1 x l2 o HL ->. exists [].
    destruct l1 as [|? l1]; [|destruct l1; discriminate]. injection HL as <- <-.
    cbn [increment_impl]. rewrite (no_next _ _ Hok [] t eq_refl). split; reflexivity.
  Qed.

  (** *** Breadth-first *)
  Definition fcs (l : list (rose addr)) : list ptr :=
    flat_map (fun s => match children s with [] => [] | f :: _ => [Some (label f)] end) l.
  Definition opt_ptr (p : ptr) : list ptr := match p with None => [] | Some _ => [p] end.
  (** The queue of an iterator standing at the node of position [(c, s)]. *)
  Definition bfs_rest (c : ctx addr) : list ptr :=
    match c with
    | [] => []
    | _ :: c1 => fcs (rsub c1 0) ++ fcs (lsub c 0)
    end.
  Definition bfs_queue (c : ctx addr) (s : rose addr) : list ptr :=
    opt_ptr (ctx_next c) ++ bfs_rest c ++ fcs [s].
  Definition st_bfs (p : ptr) (o : list ptr) : Prop :=
    match p with
    | None => o = []
    | Some x => exists c s, plug c s = t /\ label s = x /\ o = bfs_queue c s
    end.
  Lemma st_bfs_fun p o o' : st_bfs p o -> st_bfs p o' -> o = o'.
  Proof.
    destruct p as [x|]; cbn; [|congruence].
    intros (c & s & Hp & Hl & ->) (c' & s' & Hp' & Hl' & ->).
    pose proof (no_nd _ _ Hok) as Hnd. rewrite <- Hp in Hnd.
    destruct (ctx_unique c s c' s' Hnd) as [-> ->]; congruence.
  Qed.
  Lemma fcs_app l1 l2 : fcs (l1 ++ l2) = fcs l1 ++ fcs l2.
  Proof. apply flat_map_app'. Qed.
  Lemma fcs_nil l : fcs l = [] -> flat_map children l = [].
  Proof.
    induction l as [|s l IH]; cbn; [reflexivity|]. destruct (children s); [exact IH|discriminate].
  Qed.
  Lemma fcs_cons l p q : fcs l = p :: q ->
    exists l1 s f fs l2, l = l1 ++ s :: l2 /\ flat_map children l1 = [] /\ children s = f :: fs /\
      p = Some (label f) /\ q = fcs l2.
  Proof.
    induction l as [|s l IH]; cbn; [discriminate|]. destruct (children s) as [|f fs] eqn:E.
    - intros H. destruct (IH H) as (l1 & s' & f & fs & l2 & -> & H1 & H2 & H3 & H4).
      exists (s :: l1), s', f, fs, l2. cbn. rewrite E. auto.
    - intros [=<- <-]. exists [], s, f, fs, l. auto.
  Qed.

  Lemma bfs_step c s : plug c s = t ->
    (* nothing left *)
    (bfs_queue c s = [] /\ rsub c 0 ++ row (S (length c)) t = []) \/
    (* the front of the queue is the next node *)
    (exists c' s', plug c' s' = t /\ head_label (rsub c 0 ++ row (S (length c)) t) = Some (label s') /\
       bfs_queue c s = Some (label s') :: bfs_rest c').
  Proof.
    intros Hp. pose proof (no_nd _ _ Hok) as Hnd.
    destruct c as [|[[ls a] rs] c1].
    - cbn in Hp. subst s. unfold bfs_queue. cbn [ctx_next opt_ptr bfs_rest app rsub length].
      rewrite row_1. destruct t as [b cs]. unfold fcs. cbn [flat_map children]. destruct cs as [|f fs]; [left; auto|].
      right. exists [([], b, fs)], f. split; [reflexivity|]. split; [reflexivity|]. cbn. reflexivity.
    - unfold bfs_queue. cbn [ctx_next]. destruct rs as [|r rs].
      + cbn [head_label opt_ptr app]. pose proof Hp as Hp1. cbn [plug] in Hp1.
        set (p := Rose a (ls ++ [s])) in *.
        pose proof (position_row ((ls, a, []) :: c1) s) as Hrow. rewrite Hp in Hrow. cbn [length] in Hrow.
        assert (Hrs : rsub ((ls, a, []) :: c1) 0 = flat_map children (rsub c1 0)).
        { cbn [rsub flat_map app]. rewrite (rsub_0 c1 1). apply flat_map_row1. }
        assert (Hls : lsub ((ls, a, []) :: c1) 0 = flat_map children (lsub c1 0) ++ ls).
        { cbn [lsub]. rewrite (lsub_0 c1 1), flat_map_row1, row_0_flat. reflexivity. }
        assert (Hrow2 : row (S (S (length c1))) t =
                        flat_map children (lsub ((ls, a, []) :: c1) 0 ++ s :: rsub ((ls, a, []) :: c1) 0)).
        { replace (S (S (length c1))) with (S (length c1) + 1) by lia.
          rewrite row_add, Hrow. apply flat_map_row1. }
        cbn [bfs_rest]. rewrite <- app_assoc.
        destruct (fcs (rsub c1 0)) as [|q qs] eqn:Eq.
        * apply fcs_nil in Eq. rewrite Eq in Hrs. rewrite Hrs in Hrow, Hrow2 |- *. cbn [app].
          rewrite <- fcs_app. cbn [length]. rewrite Hrow2.
          set (l := lsub ((ls, a, []) :: c1) 0 ++ [s]) in *.
          destruct (fcs l) as [|q qs] eqn:El.
          -- left. split; [reflexivity|]. rewrite fcs_nil by exact El. reflexivity.
          -- right. destruct (fcs_cons _ _ _ El) as (Q0 & y & f & fs & Q1 & Hl & H1 & H2 & -> & ->).
             rewrite Hl in Hrow. destruct (row_split_position _ _ _ _ _ Hnd Hrow) as (cy & Hly & Hpy & Hlsy & Hrsy).
             exists (([], label y, fs) :: cy), f. split; [|split].
             ++ cbn [plug app]. rewrite <- H2, rose_eta. exact Hpy.
             ++ rewrite Hl, flat_map_app', H1. cbn [flat_map app]. rewrite H2. reflexivity.
             ++ cbn [bfs_rest lsub flat_map]. rewrite app_nil_r, Hrsy, (lsub_0 cy 1), flat_map_row1, Hlsy, H1.
                cbn. rewrite app_nil_r. reflexivity.
        * right. destruct (fcs_cons _ _ _ Eq) as (Q0 & y & f & fs & Q1 & Hl & H1 & H2 & -> & ->).
          pose proof (position_row c1 p) as Hrow1. rewrite Hp1, Hl in Hrow1.
          replace (lsub c1 0 ++ p :: Q0 ++ y :: Q1) with ((lsub c1 0 ++ p :: Q0) ++ y :: Q1) in Hrow1
            by (rewrite <- app_assoc; reflexivity).
          destruct (row_split_position _ _ _ _ _ Hnd Hrow1) as (cy & Hly & Hpy & Hlsy & Hrsy).
          exists (([], label y, fs) :: cy), f. split; [|split].
          -- cbn [plug app]. rewrite <- H2, rose_eta. exact Hpy.
          -- rewrite Hrs, Hl, flat_map_app', H1. cbn [flat_map app]. rewrite H2. reflexivity.
          -- cbn [bfs_rest]. rewrite Hrsy. cbn [app]. f_equal. f_equal.
             cbn [lsub flat_map]. rewrite app_nil_r, (lsub_0 cy 1), flat_map_row1, Hlsy, flat_map_app'.
             cbn [flat_map]. rewrite H1, app_nil_r.
             rewrite (lsub_0 c1 1), flat_map_row1. rewrite row_0_flat.
             subst p. cbn [children]. rewrite app_assoc, (fcs_app _ [s]). reflexivity.
      + right. exists ((ls ++ [s], a, rs) :: c1), r. split; [|split].
        * rewrite <- Hp. cbn. rewrite <- app_assoc. reflexivity.
        * reflexivity.
        * cbn [head_label opt_ptr app bfs_rest]. f_equal. rewrite <- app_assoc. f_equal.
          rewrite <- fcs_app. f_equal. cbn [lsub]. rewrite flat_map_app', app_assoc. reflexivity.
  Qed.

  Lemma bfs_push c s : plug c s = t ->
    bfs_increment nav (Some (label s) :: bfs_rest c) = Ok (Some (label s), bfs_queue c s).
  Proof.
    intros Hp. cbn [bfs_increment]. rewrite (no_next _ _ Hok _ _ Hp). cbn [mbind res_bind].
    rewrite (no_first _ _ Hok _ _ Hp). cbn [mbind res_bind]. f_equal. f_equal.
    unfold bfs_queue, fcs. cbn [flat_map]. rewrite app_nil_r.
    destruct (ctx_next c); cbn [opt_ptr app]; destruct (children s); cbn [head_label];
      rewrite ?app_nil_r; reflexivity.
  Qed.

  Lemma bfs_steps : order_steps F nav BreadthFirst (levelorder t) st_bfs.
  Proof.
    split; [apply nd_level|apply st_bfs_fun|].
    intros l1 x l2 o HL (c & s & Hp & <- & ->). pose proof (no_nd _ _ Hok) as Hnd.
    cbn [increment_impl].
    assert (Hnext : head l2 = head_label (rsub c 0 ++ row (S (length c)) t)).
    { rewrite <- Hp in Hnd, HL. rewrite <- Hp. eapply levelorder_next; eassumption. }
    rewrite Hnext. destruct (bfs_step c s Hp) as [[H1 H2]|(c' & s' & H1 & H2 & H3)].
    - rewrite H1, H2. exists []. split; reflexivity.
    - rewrite H2, H3. exists (bfs_queue c' s'). split; [apply (bfs_push _ _ H1)|].
      exists c', s'. auto.
  Qed.
  Lemma bfs_first : order_first F nav BreadthFirst (levelorder t) st_bfs.
  Proof.
    split. intros i o _. exists (bfs_queue [] t). cbn [go_first_impl]. rewrite (no_root _ _ Hok).
    pose proof (bfs_push [] t eq_refl) as H. cbn [bfs_rest] in H. rewrite H.
    assert (Hh : head (levelorder t) = Some (label t)).
    { pose proof (levelorder_at [] t) as Hl. cbn [plug rows length seq flat_map lsub map app] in Hl. rewrite Hl. reflexivity. }
    rewrite Hh. split; [reflexivity|]. exists [], t. auto.
  Qed.

  Lemma back_app_last (q : list ptr) x : back (q ++ [x]) = Ok x.
  Proof. unfold back. rewrite rev_app_distr. reflexivity. Qed.
  Lemma pop_back_app_last (q : list ptr) x : pop_back (q ++ [x]) = Ok q.
  Proof.
    unfold pop_back. rewrite removelast_last. destruct q; reflexivity.
  Qed.

  Lemma bfs_back : order_back F nav BreadthFirst (levelorder t) st_bfs.
  Proof.
    split. intros l1 x l2 o HL Hne Hst. pose proof (no_nd _ _ Hok) as Hnd.
    destruct Hst as (c & s & Hp & <- & ->).
    (* the previous node and its queue *)
    destruct l1 as [|y l1 _] using rev_ind; [congruence|]. rewrite last_snoc.
    assert (Hy : y ∈ preorder t).
    { rewrite <- levelorder_perm, HL. set_solver. }
    destruct (elem_position _ _ Hy) as (cy & sy & Hpy & <-).
    assert (HLy : levelorder t = l1 ++ label sy :: label s :: l2) by (rewrite HL, <- app_assoc; reflexivity).
    assert (Hnext : Some (label s) = head_label (rsub cy 0 ++ row (S (length cy)) t)).
    { pose proof Hnd as Hnd'. rewrite <- Hpy in Hnd', HLy. rewrite <- Hpy.
      apply (levelorder_next _ _ _ _ Hnd' HLy). }
    assert (Hqueue : bfs_queue cy sy = Some (label s) :: bfs_rest c).
    { destruct (bfs_step cy sy Hpy) as [[H1 H2]|(c' & s' & H1 & H2 & H3)].
      - rewrite H2 in Hnext. discriminate.
      - rewrite H2 in Hnext. injection Hnext as Hnext. rewrite <- Hnext in H3.
        assert (c = c' /\ s = s') as [-> ->].
        { rewrite <- Hp in Hnd. apply (ctx_unique _ _ _ _ Hnd); [congruence|exact Hnext]. }
        exact H3. }
    exists (bfs_queue cy sy). split; [|exists cy, sy; auto]. rewrite Hqueue.
    cbn [decrement_impl]. unfold bfs_decrement.
    rewrite (no_first _ _ Hok _ _ Hp). cbn [mbind res_bind].
    (* pop the first child from the back *)
    assert (Hpop : (match head_label (children s) with
               | Some _ =>
                   b ← back (bfs_queue c s); p ← nav_parent nav b;
                   _ ← guard_res (ptr_eqb p (Some (label s)));
                   pop_back (bfs_queue c s)
               | None => Ok (bfs_queue c s)
               end) = Ok (opt_ptr (ctx_next c) ++ bfs_rest c)).
    { unfold bfs_queue, fcs. cbn [flat_map]. destruct (children s) as [|f fs] eqn:E; cbn [head_label app].
      - rewrite app_nil_r. reflexivity.
      - rewrite app_assoc, back_app_last. cbn [mbind res_bind].
        assert (Hpf : plug (([], label s, fs) :: c) f = t).
        { cbn [plug app]. rewrite <- E, rose_eta. exact Hp. }
        rewrite (no_parent _ _ Hok _ _ Hpf). cbn [mbind res_bind ctx_parent].
        rewrite ptr_eqb_true. cbn [guard_res mbind res_bind]. apply pop_back_app_last. }
    rewrite Hpop. cbn [mbind res_bind].
    rewrite (no_next _ _ Hok _ _ Hp). cbn [mbind res_bind].
    assert (Hpop2 : (match ctx_next c with
               | Some _ =>
                   f ← front (opt_ptr (ctx_next c) ++ bfs_rest c); p ← nav_prev nav f;
                   _ ← guard_res (ptr_eqb p (Some (label s)));
                   pop_front (opt_ptr (ctx_next c) ++ bfs_rest c)
               | None => Ok (opt_ptr (ctx_next c) ++ bfs_rest c)
               end) = Ok (bfs_rest c)).
    { destruct c as [|[[ls a] [|r rs]] c1]; cbn [ctx_next head_label opt_ptr app]; [reflexivity|reflexivity|].
      cbn [front mbind res_bind].
      assert (Hpr : plug ((ls ++ [s], a, rs) :: c1) r = t).
      { rewrite <- Hp. cbn. rewrite <- app_assoc. reflexivity. }
      rewrite (no_prev _ _ Hok _ _ Hpr). cbn [mbind res_bind ctx_prev]. rewrite last_label_snoc, ptr_eqb_true.
      reflexivity. }
    rewrite Hpop2. cbn [mbind res_bind].
    rewrite (get_other_branch_left _ _ Hok F HF _ _ Hp). cbn [mbind res_bind].
    assert (Hprev : Some (label sy) = match last_label (lsub c 0) with
              | Some x => Some x
              | None => match length c with 0 => None | S d => last_label (row d t) end
              end).
    { pose proof Hnd as Hnd'. rewrite <- Hp in Hnd', HL.
      pose proof (levelorder_prev _ _ _ _ Hnd' HL) as Hlp. rewrite last_snoc, Hp in Hlp. exact Hlp. }
    destruct (last_label (lsub c 0)) as [z|].
    - rewrite Hprev. reflexivity.
    - destruct c as [|[[ls a] rs] c1]; [discriminate|]. cbn [length] in Hprev.
      rewrite (no_parent _ _ Hok _ _ Hp). cbn [mbind res_bind ctx_parent].
      pose proof Hp as Hp1. cbn [plug] in Hp1.
      pose proof (get_row_extremum_right _ _ Hok F HF _ _ Hp1) as Hx. cbn [label] in Hx. rewrite Hx.
      cbn [mbind res_bind]. rewrite Hprev. reflexivity.
  Qed.

  Lemma last_label_some_ne {B} (l : list (rose B)) : l <> [] -> exists s, last_label l = Some (label s) /\ exists l', l = l' ++ [s].
  Proof.
    destruct l as [|s l' _] using rev_ind; [congruence|]. intros _. exists s. rewrite last_label_snoc. eauto.
  Qed.
  Lemma bfs_last : order_last F nav BreadthFirst (levelorder t) st_bfs.
  Proof.
    split. intros i o _. cbn [go_last_impl]. rewrite (get_deepest_right _ _ Hok F HF). cbn [mbind res_bind].
    set (d := pred (height t)).
    assert (Hd : height t = S d) by (destruct t; cbn; reflexivity).
    assert (Hne : row d t <> []).
    { intros Hn. apply row_nil_iff in Hn. lia. }
    destruct (last_label_some_ne _ Hne) as (s & Hs & l' & Hl').
    assert (Hlast : last (levelorder t) = Some (label s)).
    { rewrite (levelorder_rows t (d + 1)) by lia. rewrite rows_app. unfold rows at 2. cbn [seq flat_map Nat.add].
      rewrite app_nil_r, Hl', map_app, app_assoc. cbn [map]. apply last_snoc. }
    rewrite Hlast, Hs. exists []. split; [reflexivity|].
    destruct (row_split_position d t l' s [] (no_nd _ _ Hok) Hl') as (c & Hlen & Hp & Hlsub & Hrsub).
    exists c, s. split; [exact Hp|]. split; [reflexivity|].
    destruct (bfs_step c s Hp) as [[H1 _]|(c' & s' & _ & H2 & _)]; [symmetry; exact H1|].
    rewrite Hrsub, Hlen in H2. cbn [app] in H2. rewrite (proj2 (row_nil_iff (S d) t)) in H2 by lia. discriminate.
  Qed.

  (** Creating the queue from scratch. *)
  Lemma scan_right_ok k : forall Q1 Q2 P acc stop, length Q1 < k ->
    (exists d, row d t = P ++ Q1 ++ Q2) ->
    (stop = head_label Q2) ->
    scan_right F nav k (head_label (Q1 ++ Q2)) stop acc = Ok (acc ++ fcs Q1).
  Proof.
    induction k as [|k IH]; intros Q1 Q2 P acc stop Hk [d Hrow] Hstop; [lia|]. cbn [scan_right].
    destruct Q1 as [|s Q1].
    - cbn [app]. subst stop. destruct Q2 as [|s Q2]; cbn [head_label]; rewrite ?ptr_eqb_true, ?app_nil_r; cbn; rewrite ?app_nil_r; reflexivity.
    - cbn [app head_label].
      destruct (row_split_position d t P s (Q1 ++ Q2) (no_nd _ _ Hok) Hrow) as (c & Hlen & Hp & Hls & Hrs).
      rewrite ptr_eqb_false.
      2:{ subst stop. destruct Q2 as [|q Q2]; cbn; [discriminate|]. intros [=Heq].
          pose proof (NoDup_row d t (no_nd _ _ Hok)) as Hnd. rewrite Hrow, map_app in Hnd.
          apply NoDup_app in Hnd as (_ & _ & Hnd). cbn [map app] in Hnd. apply NoDup_cons in Hnd as [Hn _].
          apply Hn. rewrite map_app. apply elem_of_app; right. cbn [map]. rewrite Heq. apply elem_of_cons; left; reflexivity. }
      unfold process_child. rewrite (no_first _ _ Hok _ _ Hp). cbn [mbind res_bind].
      rewrite (get_other_branch_right _ _ Hok F HF _ _ Hp), Hrs. cbn [mbind res_bind].
      rewrite (IH Q1 Q2 (P ++ [s])).
      + unfold fcs. cbn [flat_map]. destruct (children s); cbn [head_label app]; [reflexivity|].
        rewrite <- app_assoc. reflexivity.
      + cbn in Hk. lia.
      + exists d. rewrite Hrow, <- app_assoc. reflexivity.
      + exact Hstop.
  Qed.
  Lemma row_length d : length (row d t) <= rsize t.
  Proof.
    destruct (decide (d < height t)) as [Hd|Hd].
    - rewrite <- length_preorder. rewrite <- (Permutation_length (levelorder_perm t)).
      rewrite (levelorder_rows t (d + (1 + height t))) by lia. rewrite !rows_app, !app_length.
      unfold rows at 2. cbn [seq flat_map]. rewrite app_nil_r, map_length. cbn [Nat.add]. lia.
    - rewrite (proj2 (row_nil_iff d t)) by lia. cbn. lia.
  Qed.

  Lemma manage_ok c s : plug c s = t -> manage_initial_status F nav (Some (label s)) = Ok (bfs_queue c s).
  Proof.
    intros Hp. unfold manage_initial_status. pose proof (no_nd _ _ Hok) as Hnd.
    rewrite (no_next _ _ Hok _ _ Hp). cbn [mbind res_bind]. rewrite (no_is_root _ _ Hok).
    assert (Hroot : ptr_eqb (Some (label s)) (Some (label t)) = is_nil c).
    { rewrite <- Hp in Hnd. destruct (label_root_iff _ _ Hnd) as [H1 H2]. destruct c as [|f c]; cbn [is_nil].
      - cbn in Hp. subst s. apply ptr_eqb_true.
      - apply ptr_eqb_false. intros [=Heq]. rewrite <- Hp in Heq. specialize (H1 Heq). discriminate. }
    rewrite Hroot.
    assert (Hacc : match ctx_next c with Some _ => [ctx_next c] | None => [] end = opt_ptr (ctx_next c)).
    { destruct (ctx_next c); reflexivity. }
    rewrite Hacc. clear Hacc.
    assert (Hscan1 : forall acc, (node ← (if is_nil c then Ok None
                  else p ← nav_parent nav (Some (label s)); get_other_branch nav F false p);
          scan_right F nav F node None acc) = Ok (acc ++ match c with [] => [] | _ :: c1 => fcs (rsub c1 0) end)).
    { intros acc. assert (HF1 : 1 <= F) by (pose proof (rsize_pos t); lia).
      destruct c as [|[[ls a] rs] c1]; cbn [is_nil mbind res_bind].
      - destruct F; [lia|]. cbn. rewrite app_nil_r. reflexivity.
      - rewrite (no_parent _ _ Hok _ _ Hp). cbn [mbind res_bind ctx_parent].
        pose proof Hp as Hp1. cbn [plug] in Hp1.
        pose proof (get_other_branch_right _ _ Hok F HF _ _ Hp1) as Hx. cbn [label] in Hx. rewrite Hx.
        cbn [mbind res_bind].
        pose proof (position_row c1 (Rose a (ls ++ s :: rs))) as Hrow. rewrite Hp1 in Hrow.
        pose proof (scan_right_ok F (rsub c1 0) [] (lsub c1 0 ++ [Rose a (ls ++ s :: rs)]) acc None) as Hsc.
        rewrite app_nil_r in Hsc. apply Hsc; [|exists (length c1); rewrite Hrow, <- app_assoc; reflexivity|reflexivity].
        pose proof (row_length (length c1)) as Hr. rewrite Hrow, app_length in Hr. cbn in Hr. lia. }
    destruct (if is_nil c then Ok None
                  else p ← nav_parent nav (Some (label s)); get_other_branch nav F false p) as [node|e];
      cbn [mbind res_bind] in *; [|specialize (Hscan1 []); discriminate].
    rewrite Hscan1. cbn [mbind res_bind].
    rewrite (get_row_extremum_left _ _ Hok F HF _ _ Hp). cbn [mbind res_bind].
    pose proof (position_row c s) as Hrow. rewrite Hp in Hrow.
    rewrite Hrow.
    rewrite (scan_right_ok F (lsub c 0) (s :: rsub c 0) []).
    - cbn [mbind res_bind]. unfold process_child. rewrite (no_first _ _ Hok _ _ Hp). cbn [mbind res_bind].
      unfold bfs_queue. f_equal.
      assert (Hfs : fcs [s] = match children s with [] => [] | f :: _ => [Some (label f)] end).
      { unfold fcs. cbn [flat_map]. apply app_nil_r. }
      rewrite Hfs. clear Hfs.
      destruct c as [|f c1].
      + cbn [bfs_rest lsub app ctx_next opt_ptr]. destruct (children s); cbn; reflexivity.
      + cbn [bfs_rest]. destruct (children s); cbn [head_label app]; rewrite <- ?app_assoc, ?app_nil_r; reflexivity.
    - pose proof (row_length (length c)) as Hr. rewrite Hrow, app_length in Hr. cbn in Hr. lia.
    - exists (length c). exact Hrow.
    - reflexivity.
  Qed.
  Lemma bfs_init : order_init F nav BreadthFirst (levelorder t) st_bfs.
  Proof.
    intros p [->|(x & -> & Hx)].
    - exists []. split; reflexivity.
    - rewrite levelorder_perm in Hx. destruct (elem_position _ _ Hx) as (c & s & Hp & <-).
      exists (bfs_queue c s). split; [apply (manage_ok _ _ Hp)|]. exists c, s. auto.
  Qed.

  (** *** Leaves (forwards) *)
  Fixpoint leaf_stack (c : ctx addr) (x : addr) : list ptr :=
    match c with
    | [] => []
    | (_, a, rs) :: c => (match rs with [] => [] | _ => [Some x] end) ++ leaf_stack c a
    end.
  Definition st_leaves (p : ptr) (o : list ptr) : Prop :=
    match p with
    | None => o = []
    | Some x => exists c s, plug c s = t /\ label s = x /\ o = leaf_stack c x
    end.
  Lemma st_leaves_fun p o o' : st_leaves p o -> st_leaves p o' -> o = o'.
  Proof.
    destruct p as [x|]; cbn; [|congruence].
    intros (c & s & Hp & Hl & ->) (c' & s' & Hp' & Hl' & ->).
    pose proof (no_nd _ _ Hok) as Hnd. rewrite <- Hp in Hnd.
    destruct (ctx_unique c s c' s' Hnd) as [-> ->]; congruence.
  Qed.
  Fixpoint leaves_before (c : ctx addr) : list addr :=
    match c with [] => [] | (ls, _, _) :: c => leaves_before c ++ flat_map leaves ls end.
  Fixpoint leaves_after (c : ctx addr) : list addr :=
    match c with [] => [] | (_, _, rs) :: c => flat_map leaves rs ++ leaves_after c end.
  Lemma leaves_unfold a (cs : list (rose addr)) : cs <> [] -> leaves (Rose a cs) = flat_map leaves cs.
  Proof. destruct cs; [congruence|reflexivity]. Qed.
  Lemma leaves_plug c s : leaves (plug c s) = leaves_before c ++ leaves s ++ leaves_after c.
  Proof.
    revert s. induction c as [|[[ls a] rs] c IH]; intros s; cbn [plug leaves_before leaves_after].
    - rewrite app_nil_r. reflexivity.
    - rewrite IH, leaves_unfold by (destruct ls; discriminate). rewrite flat_map_app'. cbn [flat_map].
      norm_app. reflexivity.
  Qed.
  Lemma leaves_ne (s : rose addr) : leaves s <> [].
  Proof.
    induction s as [a cs IH] using rose_ind'. destruct cs as [|s cs]; cbn; [discriminate|].
    apply Forall_cons in IH as [IH _]. destruct (leaves s); [congruence|discriminate].
  Qed.
  Lemma leaves_sublist (s : rose addr) : sublist (leaves s) (preorder s).
  Proof.
    induction s as [a cs IH] using rose_ind'. destruct cs as [|s cs]; [reflexivity|].
    rewrite leaves_unfold by discriminate. cbn [preorder]. apply sublist_cons.
    induction IH as [|c l Hc _ IHl]; cbn [flat_map]; [reflexivity|]. apply sublist_app; assumption.
  Qed.
  Lemma sublist_NoDup (l1 l2 : list addr) : sublist l1 l2 -> NoDup l2 -> NoDup l1.
  Proof.
    intros Hs Hn. apply sublist_submseteq, submseteq_Permutation in Hs as [l3 Hs].
    rewrite Hs in Hn. apply NoDup_app in Hn as (Hn & _). exact Hn.
  Qed.
  Lemma nd_leaves : NoDup (leaves t).
  Proof. eapply sublist_NoDup; [apply leaves_sublist|apply (no_nd _ _ Hok)]. Qed.

  Lemma leaves_call_ok c s st : plug c s = t ->
    leaves_call nav st (Some (label s)) =
    Ok (head_label (children s), match ctx_next c with Some _ => Some (label s) :: st | None => st end).
  Proof.
    intros Hp. unfold leaves_call. rewrite (no_next _ _ Hok _ _ Hp). cbn [mbind res_bind].
    rewrite (no_first _ _ Hok _ _ Hp). reflexivity.
  Qed.
  (** Going down along first children, remembering the nodes with siblings. *)
  Lemma leaves_down s : forall c fuel, plug c s = t -> height s <= fuel ->
    exists c' s', plug c' s' = t /\ head (leaves s) = Some (label s') /\ children s' = [] /\
      leaves_after c' = tail (leaves s) ++ leaves_after c /\
      keep_calling0 (leaves_call nav) fuel (Some (label s))
        (match c with [] => [] | (_, a, _) :: c1 => leaf_stack c1 a end)
      = Ok (Some (label s'), leaf_stack c' (label s')).
  Proof.
    induction s as [a cs IH] using rose_ind'. intros c fuel Hp Hf.
    unfold keep_calling0. rewrite (leaves_call_ok _ _ _ Hp). cbn [mbind res_bind children label].
    set (st1 := match ctx_next c with Some _ => _ | None => _ end).
    assert (Hst1 : st1 = leaf_stack c a).
    { subst st1. destruct c as [|[[ls b] [|r rs]] c1]; reflexivity. }
    rewrite Hst1. clear st1 Hst1.
    destruct fuel as [|fuel]; [cbn in Hf; lia|].
    destruct cs as [|s cs]; cbn [head_label keep_calling0_loop].
    - exists c, (Rose a []). auto.
    - assert (Hp2 : plug (([], a, cs) :: c) s = t) by exact Hp.
      apply Forall_cons in IH as [IH _].
      assert (Hf2 : height s <= fuel) by (cbn [height map] in Hf; rewrite list_max_cons in Hf; lia).
      destruct (IH _ fuel Hp2 Hf2) as (c' & s' & H1 & H2 & H3 & H4 & H5).
      exists c', s'. split; [exact H1|]. split; [|split; [exact H3|split]].
      + cbn [leaves flat_map]. destruct (leaves s) eqn:E; [discriminate|]. exact H2.
      + rewrite H4. cbn [leaves flat_map leaves_after]. destruct (leaves s) eqn:E; [discriminate|].
        cbn. rewrite <- app_assoc. reflexivity.
      + unfold keep_calling0 in H5. exact H5.
  Qed.

  Lemma leaves_step c s x : plug c s = t -> x = label s ->
    exists o', leaves_increment F nav (leaf_stack c x) = Ok (head (leaves_after c), o') /\
      st_leaves (head (leaves_after c)) o'.
  Proof.
    revert s x. induction c as [|[[ls a] rs] c IH]; intros s x Hp ->; cbn [leaf_stack leaves_after].
    - exists []. split; reflexivity.
    - destruct rs as [|r rs]; cbn [app flat_map].
      + apply (IH _ _ Hp). reflexivity.
      + cbn [leaves_increment]. rewrite (no_next _ _ Hok _ _ Hp). cbn [mbind res_bind ctx_next head_label].
        assert (Hp2 : plug ((ls ++ [s], a, rs) :: c) r = t).
        { rewrite <- Hp. cbn. rewrite <- app_assoc. reflexivity. }
        destruct (leaves_down r _ F Hp2) as (c' & s' & H1 & H2 & H3 & H4 & H5).
        { apply (pos_fuelB _ _ Hok F HF _ _ Hp2). }
        rewrite H5. exists (leaf_stack c' (label s')).
        assert (Hh : head ((leaves r ++ flat_map leaves rs) ++ leaves_after c) = Some (label s')).
        { destruct (leaves r); [discriminate|exact H2]. }
        rewrite Hh. split; [reflexivity|]. exists c', s'. auto.
  Qed.

  Lemma leaf_position (u : rose addr) x : x ∈ leaves u -> exists c, plug c (Rose x []) = u.
  Proof.
    induction u as [a cs IH] using rose_ind'. destruct cs as [|s cs].
    - cbn. rewrite elem_of_list_singleton. intros ->. exists []. reflexivity.
    - rewrite leaves_unfold by discriminate. rewrite elem_of_flat_map. intros (y & Hy & Hx).
      rewrite Forall_forall in IH. destruct (IH y Hy Hx) as [c Hc].
      apply elem_of_list_split in Hy as (ls & rs & ->).
      exists (c ++ [(ls, a, rs)]). rewrite plug_app, Hc. reflexivity.
  Qed.

  Lemma leaves_steps : order_steps F nav Leaves (leaves t) st_leaves.
  Proof.
    split; [apply nd_leaves|apply st_leaves_fun|].
    intros l1 x l2 o HL (c & s & Hp & <- & ->). cbn [increment_impl].
    destruct (leaf_position t (label s)) as (c' & Hp'). { rewrite HL. set_solver. }
    pose proof (no_nd _ _ Hok) as Hnd. rewrite <- Hp in Hnd.
    destruct (ctx_unique c s c' (Rose (label s) []) Hnd) as [<- Hs]; [congruence|reflexivity|].
    pose proof (leaves_plug c s) as Hlp. rewrite Hp, HL in Hlp.
    rewrite Hs in Hlp at 2. cbn [leaves app] in Hlp.
    apply NoDup_split_unique in Hlp as [_ ->]; [|rewrite <- HL; apply nd_leaves].
    apply (leaves_step c s _ Hp eq_refl).
  Qed.
  Lemma leaves_first : order_first F nav Leaves (leaves t) st_leaves.
  Proof.
    split. intros i o ->. cbn [go_first_impl]. rewrite (no_root _ _ Hok).
    destruct (leaves_down t [] F eq_refl) as (c' & s' & H1 & H2 & H3 & H4 & H5).
    { pose proof (height_rsize t). lia. }
    rewrite H5, H2. eexists. split; [reflexivity|]. exists c', s'. auto.
  Qed.
End PolicyFacts.
