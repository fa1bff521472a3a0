(** BfsStay.v: lemmas for C57: breadth-first iterators that outlive changes. *)
From Verif Require Import Base Spec StructNode BinaryNode NaryNode Nav Policy Tree Rep User RoseFacts RowFacts NavFacts Orders PolicyFacts BinOrder Iter IterTrees IterMain NaryRep EditFacts LeafSpec LeafStay.

Lemma firsts_fcs l : fcs l = map Some (firsts l).
Proof. induction l as [|s l IH]; [reflexivity|]. cbn. unfold fcs, firsts in *. cbn. rewrite IH. destruct (children s); reflexivity. Qed.
(** The queue of an iterator at the node of position [(c, s)] is what waits. *)
Lemma waiting_queue t c s a q : NoDup (preorder t) -> plug c s = t -> label s = a -> waiting t a q -> bfs_queue c s = map Some q.
Proof.
  intros Hn Hp Hl Hw. destruct Hw as [|n ps p ls s0 rs ps' Hr].
  - destruct (ctx_unique c s [] t) as [-> ->]; [rewrite Hp; exact Hn|exact Hp|exact Hl|]. unfold bfs_queue. cbn [ctx_next opt_ptr bfs_rest app]. apply firsts_fcs.
  - destruct (row_split_position _ _ _ _ _ Hn Hr) as (c1 & _ & Hp1 & Hls & Hrs).
    destruct (ctx_unique c s ((ls, p, rs) :: c1) s0) as [-> ->]; [rewrite Hp; exact Hn|rewrite Hp; symmetry; exact Hp1|exact Hl|].
    unfold bfs_queue. cbn [ctx_next bfs_rest lsub]. rewrite Hrs, (lsub_0 c1 1), flat_map_row1, row_0_flat, Hls.
    rewrite !map_app, <- !firsts_fcs, app_assoc, !fcs_app, !app_assoc. f_equal. f_equal. f_equal. f_equal. destruct rs; reflexivity.
Qed.

Section Stay.
  Context {V Nd : Type}.
  Variable F : nat.
  Variable im : node_impl V Nd.
  Section One.
    Variable h : gmap addr Nd.
    Variable r : addr.
    Variable t : rose (addr * V).
    Hypothesis Hs : seen F im h r t.
    Notation mk := (tree_nav im h).
    Notation T := (rose_map fst t).
    Let Hok := sn_nav _ _ _ _ _ Hs.
    Let HF' : rsize T <= F. Proof. rewrite rsize_map. pose proof (sn_size _ _ _ _ _ Hs). lia. Qed.

    Lemma seen_nd_level : NoDup (map fst (levelorder t)).
    Proof. rewrite <- levelorder_map. eapply nd_level, Hok. Qed.
    Lemma bfs_rest_walk (l1 l2 : list (addr * V)) it : levelorder t = l1 ++ l2 ->
      at_pos r BreadthFirst (st_bfs T) (head (map fst l2)) it -> iterate_from F im h it BreadthFirst (Some r) = Ok l2.
    Proof.
      intros El Hat. unfold iterate_from, tree_end, it_end, get_instance, fix_navigator_root. cbn [mbind res_bind].
      set (e := Iter BreadthFirst None (Some r) [] None).
      assert (He : at_pos r BreadthFirst (st_bfs T) None e) by (split; reflexivity).
      destruct (levelorder t) as [|d l'] eqn:Ed; [destruct t; discriminate Ed|]. rewrite <- Ed in *.
      assert (Hval : forall x, x ∈ levelorder t -> ni_value im h (Some (fst x)) = Ok (snd x)) by (intros x Hx; apply (sn_val _ _ _ _ _ Hs); rewrite <- levelorder_perm; exact Hx).
      unfold incr. change (manage_initial_status F (mk (Some r)) None) with (Ok (A := list ptr) []). cbn [mbind res_bind].
      rewrite (walk_at F mk r BreadthFirst (map fst (levelorder t)) (st_bfs T)) with (l1 := map fst l1) (l2 := map fst l2) (val := fun a => default d (find a (levelorder t))).
      - f_equal. apply map_find; [exact seen_nd_level|]. intros x Hx. rewrite El. apply elem_of_app. right. exact Hx.
      - rewrite <- levelorder_map. apply bfs_steps; assumption.
      - apply visit_find; [exact Hval|exact seen_nd_level].
      - rewrite El, map_app. reflexivity.
      - exact Hat.
      - exact He.
      - rewrite map_length. pose proof (sn_size _ _ _ _ _ Hs) as Hz. rewrite <- length_preorder, <- levelorder_perm, El, app_length in Hz. lia.
    Qed.
    Lemma bfs_made a it q : iterator_at F im h BreadthFirst (Some a) (Some r) = Ok it -> waiting T a q -> a ∈ preorder T ->
      it = Iter BreadthFirst (Some a) (Some r) (map Some q) (Some a).
    Proof.
      intros E Hw Ha. unfold iterator_at, get_instance, fix_navigator_root in E. cbn [mbind res_bind] in E.
      destruct (bfs_init _ _ Hok F HF' (Some a)) as (o & Eo & c & s & Hp & Hl & ->).
      { right. exists a. split; [reflexivity|]. rewrite levelorder_perm. exact Ha. }
      rewrite (waiting_queue _ c s a q (no_nd _ _ Hok) Hp Hl Hw) in Eo.
      unfold initial_open in Eo. rewrite Eo in E. cbn [mbind res_bind] in E. injection E as <-. reflexivity.
    Qed.
  End One.

  Lemma bfs_stay h h' r (t t' : rose (addr * V)) y a q it0 it l1 l2 : seen F im h r t -> seen F im h' r t' ->
    a ∈ raddrs t -> iterator_at F im h BreadthFirst (Some a) (Some r) = Ok it0 -> same_iter it it0 ->
    waiting (rose_map fst t) a q -> waiting (rose_map fst t') a q ->
    levelorder t' = l1 ++ y :: l2 -> fst y = a ->
    iterate_from F im h' it BreadthFirst (Some r) = Ok (y :: l2).
  Proof.
    intros Hs Hs' Ha E0 Hsi Hw Hw' El Hy. apply (bfs_rest_walk h' r t' Hs' l1); [exact El|].
    assert (Ha0 : a ∈ preorder (rose_map fst t)) by (rewrite preorder_map; exact Ha).
    rewrite (bfs_made h r t Hs a it0 q E0 Hw Ha0) in Hsi. destruct Hsi as (G1 & G2 & G3 & G4). cbn in *. split; [exact G1|cbn; congruence|exact G3|].
    assert (Hin : a ∈ preorder (rose_map fst t')). { rewrite preorder_map, <- (levelorder_perm t'), El, map_app. apply elem_of_app. right. cbn. rewrite Hy. left. }
    destruct (elem_position _ _ Hin) as (c & s & Hp & Hl). rewrite Hy. exists c, s. split; [exact Hp|]. split; [exact Hl|].
    rewrite G4. symmetry. apply (waiting_queue (rose_map fst t') c s a q); [exact (no_nd _ _ (sn_nav _ _ _ _ _ Hs'))|exact Hp|exact Hl|exact Hw'].
  Qed.
End Stay.
