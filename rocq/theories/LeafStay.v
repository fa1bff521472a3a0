(** LeafStay.v: what a leaves iterator holds, and when it can be used on another
    tree than the one it was made for. *)
From Verif Require Import Base Spec EditSpec StructNode LitFacts BinaryNode NaryNode Nav Policy Tree RoseFacts RowFacts
  NavFacts BranchFacts Orders PolicyFacts BinOrder Rep BinRep NaryRep User Iter IterTrees IterMain World Kinds TreeSpec NodeFacts NaryEdit StarMain LeafSpec.

(** *** The stack is the trail *)
Fixpoint stack_names (c : ctx addr) (x : addr) : list addr :=
  match c with
  | [] => []
  | (_, a, rs) :: c => (match rs with [] => [] | _ => [x] end) ++ stack_names c a
  end.
Lemma leaf_stack_names c x : leaf_stack c x = map Some (stack_names c x).
Proof. revert x. induction c as [|[[ls a] rs] c IH]; intros x; cbn; [reflexivity|]. rewrite map_app, IH. destruct rs; reflexivity. Qed.

Definition trail_go (a : addr) : list (rose addr) -> option (list addr) :=
  fix go (l : list (rose addr)) : option (list addr) :=
    match l with
    | [] => None
    | d :: l' =>
        match trail a d with
        | Some p => Some (p ++ match l' with [] => [] | _ => [label d] end)
        | None => go l'
        end
    end.
Lemma trail_unfold a x cs : trail a (Rose x cs) = if decide (x = a) then Some [] else trail_go a cs.
Proof. reflexivity. Qed.
Lemma trail_out a t : a ∉ preorder t -> trail a t = None.
Proof.
  induction t as [x cs IH] using rose_ind'. intros Ha. rewrite trail_unfold. change (preorder (Rose x cs)) with (x :: flat_map preorder cs) in Ha.
  rewrite decide_False by (intros ->; apply Ha; left). assert (Hc : a ∉ flat_map preorder cs) by (intros H; apply Ha; right; exact H). clear Ha.
  induction cs as [|d cs IHc]; [reflexivity|]. cbn [trail_go flat_map] in *. apply Forall_cons in IH as [IHd IHcs].
  rewrite IHd by (intros H; apply Hc, elem_of_app; left; exact H). apply IHc; [exact IHcs|]. intros H. apply Hc, elem_of_app. right. exact H.
Qed.
Lemma trail_go_out a l d rs : a ∉ flat_map preorder l -> trail_go a (l ++ d :: rs) = trail_go a (d :: rs).
Proof.
  induction l as [|x l IH]; intros Ha; [reflexivity|]. change ((x :: l) ++ d :: rs) with (x :: l ++ d :: rs). cbn [trail_go flat_map] in *.
  rewrite trail_out by (intros H; apply Ha, elem_of_app; left; exact H). apply IH. intros H. apply Ha, elem_of_app. right. exact H.
Qed.
Lemma trail_plug c : forall a s p, NoDup (preorder (plug c s)) -> a ∈ preorder s -> trail a s = Some p ->
  trail a (plug c s) = Some (p ++ stack_names c (label s)).
Proof.
  induction c as [|[[ls b] rs] c IH]; intros a s p Hn Ha Hp; cbn [plug stack_names]; [rewrite app_nil_r; exact Hp|].
  cbn [plug] in Hn. rewrite (IH a _ (p ++ match rs with [] => [] | _ => [label s] end) Hn); [rewrite <- app_assoc; reflexivity| |].
  - cbn [preorder]. apply elem_of_cons. right. apply elem_of_flat_map. exists s. split; [apply elem_of_app; right; left|exact Ha].
  - assert (Hi : NoDup (preorder (Rose b (ls ++ s :: rs)))).
    { exact (NoDup_sub _ _ Hn). }
    cbn [preorder] in Hi. apply NoDup_cons in Hi as [Hb Hi]. rewrite flat_map_app' in Hi. cbn [flat_map] in Hi, Hb.
    assert (Hab : b <> a).
    { intros ->. apply Hb. rewrite flat_map_app'. apply elem_of_app. right. cbn [flat_map]. apply elem_of_app. left. exact Ha. }
    rewrite trail_unfold, decide_False by exact Hab. rewrite trail_go_out.
    + cbn [trail_go]. rewrite Hp. reflexivity.
    + intros H. apply NoDup_app in Hi as (_ & Hi & _). apply (Hi a H). apply elem_of_app. left. exact Ha.
Qed.
Lemma trail_self x cs : trail x (Rose x cs) = Some [].
Proof. rewrite trail_unfold, decide_True by reflexivity. reflexivity. Qed.

Section Stay.
  Context {V Nd : Type}.
  Variable F : nat.
  Variable im : node_impl V Nd.

  (** The tree [t] with root [r] as the navigator of heap [h] sees it. *)
  Record seen (h : gmap addr Nd) (r : addr) (t : rose (addr * V)) : Prop := Seen {
    sn_nav : nav_ok (tree_nav im h (Some r)) (rose_map fst t);
    sn_size : rsize t < F;
    sn_val : forall x, x ∈ preorder t -> ni_value im h (Some (fst x)) = Ok (snd x)
  }.

  Section One.
    Variable h : gmap addr Nd.
    Variable r : addr.
    Variable t : rose (addr * V).
    Hypothesis Hs : seen h r t.
    Notation mk := (tree_nav im h).
    Notation T := (rose_map fst t).
    Let Hok := sn_nav _ _ _ Hs.
    Let HF' : rsize T <= F. Proof. rewrite rsize_map. pose proof (sn_size _ _ _ Hs). lia. Qed.

    Lemma seen_nd : NoDup (map fst (leaves t)).
    Proof. rewrite <- leaves_map. eapply nd_leaves, Hok. Qed.
    Lemma seen_length : length (leaves t) <= rsize t.
    Proof. rewrite <- (map_length fst), <- leaves_map, <- (rsize_map fst t), <- length_preorder. apply sublist_length, leaves_sublist. Qed.
    (** [it] stands where [++] has to go to [l2]. *)
    Lemma walk_rest (l1 l2 : list (addr * V)) it : leaves t = l1 ++ l2 ->
      at_pos r Leaves (st_leaves T) (head (map fst l2)) it -> iterate_from F im h it Leaves (Some r) = Ok l2.
    Proof.
      intros El Hat. unfold iterate_from, tree_end, it_end, get_instance, fix_navigator_root. cbn [mbind res_bind].
      set (e := Iter Leaves None (Some r) [] None).
      assert (He : at_pos r Leaves (st_leaves T) None e) by (split; reflexivity).
      destruct (leaves t) as [|d l'] eqn:Ed; [symmetry in El; apply app_eq_nil in El as [-> ->]|].
      { destruct F as [|f] eqn:EF; [pose proof (sn_size _ _ _ Hs); lia|]. cbn [walk]. rewrite (at_pos_eqb _ _ _ _ _ _ _ Hat He). reflexivity. }
      rewrite <- Ed in *.
      assert (Hval : forall x, x ∈ leaves t -> ni_value im h (Some (fst x)) = Ok (snd x)) by (intros x Hx; apply (sn_val _ _ _ Hs), leaves_in, Hx).
      unfold incr. rewrite (walk_at F mk r Leaves (map fst (leaves t)) (st_leaves T)) with (l1 := map fst l1) (l2 := map fst l2) (val := fun a => default d (find a (leaves t))).
      - f_equal. apply map_find; [exact seen_nd|]. intros x Hx. rewrite El. apply elem_of_app. right. exact Hx.
      - rewrite <- leaves_map. apply leaves_steps; assumption.
      - apply visit_find; [exact Hval|exact seen_nd].
      - rewrite El, map_app. reflexivity.
      - exact Hat.
      - exact He.
      - rewrite map_length. pose proof seen_length as Hl. rewrite El, app_length in Hl. pose proof (sn_size _ _ _ Hs). lia.
    Qed.

    (** What an iterator holds that walked from begin. *)
    Lemma walked m x : nth_error (leaves t) m = Some x ->
      exists b it p, tree_begin F mk Leaves (Some r) = Ok b /\ run F im h (repeat true m) b = Ok it /\
        it_kind it = Leaves /\ it_cur it = Some (fst x) /\ it_root it = Some r /\ it_open it = map Some p /\ trail (fst x) T = Some p.
    Proof.
      intros Hx.
      assert (Hgo : forall m i it, i + m < length (leaves t) -> at_pos r Leaves (st_leaves T) (nth_addr (leaves t) i) it ->
        exists it', run F im h (repeat true m) it = Ok it' /\ at_pos r Leaves (st_leaves T) (nth_addr (leaves t) (i + m)) it').
      { clear m Hx. induction m as [|m IH]; intros i it Hi Hat; [exists it; rewrite Nat.add_0_r; auto|].
        cbn [repeat run]. destruct (at_index (map fst (leaves t)) i) as (l1 & l2 & HL & Hlen & Hh). { rewrite map_length. lia. }
        unfold nth_addr in Hat. rewrite <- Hh in Hat. destruct l2 as [|y l2].
        { rewrite app_nil_r in HL. rewrite <- HL, map_length in Hlen. lia. }
        destruct (incr_at F mk r Leaves (map fst (leaves t)) (st_leaves T)) with (l1 := l1) (x := y) (l2 := l2) (it := it) as (it1 & H1 & H2 & _); [|exact HL|exact Hat|].
        { rewrite <- leaves_map. apply leaves_steps; assumption. }
        unfold incr. rewrite H1. cbn [mbind res_bind]. destruct (IH (S i) it1) as (it' & G1 & G2); [lia| |].
        - replace (nth_addr (leaves t) (S i)) with (head l2); [exact H2|]. unfold nth_addr.
          rewrite HL, nth_error_app2 by lia. rewrite Hlen. replace (S i - i) with 1 by lia. destruct l2; reflexivity.
        - exists it'. replace (i + S m) with (S i + m) by lia. auto. }
      assert (Hm : m < length (leaves t)) by (apply nth_error_Some; rewrite Hx; discriminate).
      unfold tree_begin, it_end, get_instance, fix_navigator_root. cbn [mbind res_bind].
      set (e := Iter Leaves None (Some r) [] None).
      assert (He : at_pos r Leaves (st_leaves T) None e) by (split; reflexivity).
      destruct (incr_end F mk r Leaves (map fst (leaves t)) (st_leaves T)) with (it := e) as (b & Hb & Hb2 & _); [|exact He|].
      { rewrite <- leaves_map. apply leaves_first; assumption. }
      rewrite Hb. destruct (Hgo m 0 b) as (it & G1 & G2); [lia| |].
      { unfold nth_addr. destruct (leaves t); exact Hb2. }
      cbn [Nat.add] in G2. unfold nth_addr in G2. rewrite nth_error_map, Hx in G2. cbn in G2.
      destruct G2 as [A1 A2 A3 (c & s & Hp & Hl & Ho)].
      exists b, it, (stack_names c (fst x)). split; [reflexivity|]. split; [exact G1|]. split; [exact A1|]. split; [exact A2|]. split; [exact A3|].
      split; [rewrite Ho; apply leaf_stack_names|]. pose proof (no_nd _ _ Hok) as Hn. rewrite <- Hp in Hn |- *. destruct s as [y cs]. cbn in Hl. subst y.
      rewrite (trail_plug c (fst x) (Rose (fst x) cs) []); [reflexivity|exact Hn|left|apply trail_self].
    Qed.

    (** A leaves iterator at a node of the tree that holds its trail: [++] goes to
        the leaf after the node's subtree. *)
    Lemma step_out (c : ctx (addr * V)) (s : rose (addr * V)) p it : plug c s = t -> it_kind it = Leaves -> it_cur it = Some (raddr s) -> it_root it = Some r ->
      trail (raddr s) T = Some p -> it_open it = map Some p ->
      exists l1 l2, leaves t = l1 ++ leaves s ++ l2 /\ iterate_from F im h it Leaves (Some r) = Ok (label s :: l2).
    Proof.
      intros Hp Hk Hc Hr Ht Ho.
      assert (Hpm : exists c', plug c' (rose_map fst s) = T /\ exists l1 l2, leaves t = l1 ++ leaves s ++ l2 /\ leaves_after c' = map fst l2).
      { clear -Hp. revert s t Hp. induction c as [|[[ls a] rs] c IH]; intros s t Hp.
        - cbn in Hp. subst t. exists []. split; [reflexivity|]. exists [], []. rewrite app_nil_r. auto.
        - cbn in Hp. destruct (IH _ _ Hp) as (c' & H1 & l1 & l2 & H2 & H3). exists ((map (rose_map fst) ls, fst a, map (rose_map fst) rs) :: c').
          split. { cbn. rewrite <- H1. cbn. rewrite map_app. reflexivity. }
          assert (He : leaves (Rose a (ls ++ s :: rs)) = flat_map leaves ls ++ leaves s ++ flat_map leaves rs).
          { transitivity (flat_map leaves (ls ++ s :: rs)); [destruct ls; reflexivity|]. rewrite flat_map_app'. reflexivity. }
          exists (l1 ++ flat_map leaves ls), (flat_map leaves rs ++ l2). split; [rewrite H2, He; norm_app; reflexivity|]. cbn [leaves_after]. rewrite H3, map_app. f_equal.
          clear. induction rs as [|d rs IH]; cbn; [reflexivity|]. rewrite map_app, IH, leaves_map. reflexivity. }
      destruct Hpm as (c' & Hp' & l1 & l2 & El & Ha). exists l1, l2. split; [exact El|].
      assert (Hls : label (rose_map fst s) = raddr s) by (destruct s as [[? ?] ?]; reflexivity).
      assert (Hst : p = stack_names c' (raddr s)).
      { pose proof (no_nd _ _ Hok) as Hn. rewrite <- Hp' in Hn, Ht. destruct s as [[a v] cs]. cbn in Ht.
        rewrite (trail_plug c' a (Rose a (map (rose_map fst) cs)) []) in Ht; [injection Ht as <-; reflexivity|exact Hn|left|apply trail_self]. }
      destruct (leaves_step _ _ Hok F HF' c' (rose_map fst s) (raddr s) Hp' (eq_sym Hls)) as (o' & E1 & E2).
      unfold iterate_from. pose proof (sn_size _ _ _ Hs) as Hsz.
      assert (Hw : forall it', at_pos r Leaves (st_leaves T) (head (map fst l2)) it' -> forall e, tree_end F mk Leaves (Some r) = Ok e -> walk (visit im h) (incr F im h) (Nat.pred F) it' e = Ok l2).
      { intros it' Hat e Ee. injection Ee as <-. set (e := Iter Leaves None (Some r) [] None).
        assert (He : at_pos r Leaves (st_leaves T) None e) by (split; reflexivity).
        assert (Hval : forall x, x ∈ leaves t -> ni_value im h (Some (fst x)) = Ok (snd x)) by (intros x Hx; apply (sn_val _ _ _ Hs), leaves_in, Hx).
        unfold incr. rewrite (walk_at F mk r Leaves (map fst (leaves t)) (st_leaves T)) with (l1 := map fst (l1 ++ leaves s)) (l2 := map fst l2) (val := fun a => default (label s) (find a (leaves t))).
        - f_equal. apply map_find; [exact seen_nd|]. intros x Hx. rewrite El. apply elem_of_app. right. apply elem_of_app. right. exact Hx.
        - rewrite <- leaves_map. apply leaves_steps; assumption.
        - apply visit_find; [exact Hval|exact seen_nd].
        - rewrite El, app_assoc, map_app. reflexivity.
        - exact Hat.
        - exact He.
        - rewrite map_length. pose proof seen_length as Hl. rewrite El, !app_length in Hl.
          assert (length (leaves s) <> 0). { intros E0. apply length_zero_iff_nil in E0. apply (leaves_ne (rose_map fst s)). rewrite leaves_map, E0. reflexivity. }
          lia. }
      destruct F as [|f] eqn:EF; [lia|]. rewrite <- EF in *. replace (walk (visit im h) (incr F im h) F) with (walk (visit im h) (incr F im h) (S f)) by (rewrite EF; reflexivity).
      destruct (tree_end F mk Leaves (Some r)) as [e|] eqn:Ee; [|discriminate Ee]. cbn [mbind res_bind walk].
      assert (Ee' := Ee). injection Ee' as <-.
      unfold it_eqb at 1. cbn [it_cur it_root]. rewrite Hc. cbn [ptr_eqb]. rewrite ptr_eqb_false by discriminate. cbn [andb].
      assert (Hv : visit im h (Some (raddr s)) = Ok (label s)).
      { cbn [visit]. pose proof (sn_val _ _ _ Hs (label s)) as Hv. destruct s as [[b v] cs]. cbn [label raddr fst snd] in *. rewrite Hv; [reflexivity|].
        rewrite <- Hp. exact (position_elem c (Rose (b, v) cs)). }
      rewrite Hv.
      cbn [mbind res_bind]. assert (Hi : incr F im h it = Ok (it_set it (head (map fst l2), o'))).
      { unfold incr, it_incr. rewrite Hc, Hr, Hk. cbn [increment_impl]. rewrite Ho, Hst, <- leaf_stack_names, E1, Ha. reflexivity. }
      rewrite Hi. cbn [mbind res_bind].
      rewrite EF in Hw. cbn [Nat.pred] in Hw. rewrite <- EF in Hw. rewrite Hw; [cbn; destruct s as [[? ?] ?]; reflexivity| |exact Ee].
      split; cbn [it_set it_kind it_cur it_root it_open fst snd]; [exact Hk|reflexivity|exact Hr|]. rewrite <- Ha. exact E2.
    Qed.
  End One.
End Stay.

Lemma nary_seen {V} `{EqDecision V} F (h : gmap addr (nnode V)) t : nary_in h t -> rsize t < F -> seen F (nary_impl V) h (raddr t) t.
Proof. intros Ht HF. split; [apply nary_nav, Ht|exact HF|]. intros x Hx. exact (nary_value h t Ht x Hx). Qed.
Lemma bin_seen {V} `{EqDecision V} F (h : gmap addr (bnode V)) c t : bin_in h c -> bin_size c < F -> bin_forest c = [t] -> seen F (binary_impl V) h (raddr t) t.
Proof.
  intros Hc HF Ht. destruct (bin_roots h c Hc) as (a & u & Ha & Hu & Hsz & Hra & Hok & _ & Hlab); [intros ->; discriminate|].
  rewrite Ht in Hu. injection Hu as <-. rewrite Hra. split; [exact Hok|lia|]. intros x Hx. apply (bin_value h c Hc x). rewrite Hlab. exact Hx.
Qed.

(** *** Replacing a node *)
Lemma subst_at {V} (c : ctx (addr * V)) s u : NoDup (raddrs (plug c s)) -> rsubst (raddr s) (Some u) (plug c s) = Some (plug c u).
Proof.
  intros Hn. rewrite (rsubst_plug (raddr s) (Some u) c s eq_refl); [reflexivity|].
  destruct (NoDup_plug c s Hn) as (_ & _ & Hd). intros Hx. apply (Hd (raddr s)); [|exact Hx]. destruct s as [[? ?] ?]. left.
Qed.
Definition cmap {V} (c : ctx (addr * V)) : ctx addr := map (fun x => let '(ls, a, rs) := x in (map (rose_map fst) ls, fst a, map (rose_map fst) rs)) c.
Lemma plug_cmap {V} (c : ctx (addr * V)) : forall s, rose_map fst (plug c s) = plug (cmap c) (rose_map fst s).
Proof. induction c as [|[[ls a] rs] c IH]; intros s; cbn [plug cmap map]; [reflexivity|]. rewrite IH. cbn. rewrite map_app. reflexivity. Qed.
Lemma trail_at {V} (c : ctx (addr * V)) s : NoDup (raddrs (plug c s)) -> trail (raddr s) (rose_map fst (plug c s)) = Some (stack_names (cmap c) (raddr s)).
Proof.
  intros Hn. unfold raddrs in Hn. rewrite <- preorder_map, plug_cmap in Hn. rewrite plug_cmap. destruct s as [[a v] cs].
  exact (trail_plug (cmap c) a (rose_map fst (Rose (a, v) cs)) [] Hn ltac:(left) (trail_self _ _)).
Qed.
(** A last child has the trail of its parent, whatever it is. *)
Lemma trail_last {V} (c : ctx (addr * V)) q ls s u : NoDup (raddrs (plug c (Rose q (ls ++ [s])))) -> NoDup (raddrs (plug c (Rose q (ls ++ [u])))) ->
  trail (raddr u) (rose_map fst (plug c (Rose q (ls ++ [u])))) = trail (raddr s) (rose_map fst (plug c (Rose q (ls ++ [s])))).
Proof. intros H1 H2. exact (eq_trans (trail_at ((ls, q, []) :: c) u H2) (eq_sym (trail_at ((ls, q, []) :: c) s H1))). Qed.
(** Any other child is the first of its trail. *)
Lemma trail_next {V} (c : ctx (addr * V)) q ls s r rs : NoDup (raddrs (plug c (Rose q (ls ++ s :: r :: rs)))) ->
  exists p, trail (raddr s) (rose_map fst (plug c (Rose q (ls ++ s :: r :: rs)))) = Some (raddr s :: p).
Proof. intros H. eexists. exact (trail_at ((ls, q, r :: rs) :: c) s H). Qed.

Lemma seen_raddrs {V Nd} F (im : node_impl V Nd) h r t : seen F im h r t -> NoDup (raddrs t).
Proof. intros Hs. pose proof (no_nd _ _ (sn_nav _ _ _ _ _ Hs)) as Hn. rewrite preorder_map in Hn. exact Hn. Qed.

(** Replacing subtrees of a binary tree, as forests. *)
Lemma forest_subst {V} a (u : bin (addr * V)) u' c : bin_forest u = [u'] ->
  bin_forest (bsubst a u c) = flat_map (fun d => opt_list (fun y => [y]) (rsubst a (Some u') d)) (bin_forest c).
Proof.
  intros Hu. induction c as [|[x v] l IHl r IHr]; [reflexivity|]. cbn [bsubst bin_forest flat_map rsubst].
  destruct (decide (x = a)); cbn [opt_list]; [rewrite Hu; reflexivity|]. cbn [bin_forest app]. rewrite IHl, IHr, flat_map_app. reflexivity.
Qed.

(** The stack top was released. *)
Lemma leaves_dangling {V Nd} F (im : node_impl V Nd) h it (q : addr) p r : it_kind it = Leaves -> it_cur it <> None -> it_root it = Some r -> it_open it = map Some (q :: p) ->
  nav_next (tree_nav im h (Some r)) (Some q) = Err Dangling -> incr F im h it = Err Dangling.
Proof.
  intros Hk Hc Hr Ho Hq. unfold incr, it_incr. destruct (it_cur it); [|congruence]. rewrite Hk, Hr, Ho. cbn [increment_impl leaves_increment map]. rewrite Hq. reflexivity.
Qed.
(** The root has no trail. *)
Lemma trail_not_root {V} (t : rose (addr * V)) a q p : trail a (rose_map fst t) = Some (q :: p) -> NoDup (raddrs t) -> q <> raddr t.
Proof.
  destruct t as [[r v] cs]. intros Ht Hn. change (raddr (Rose (r, v) cs)) with r. unfold raddrs in Hn. rewrite <- preorder_map in Hn. cbn [rose_map preorder fst] in *.
  rewrite trail_unfold in Ht. destruct (decide (r = a)); [discriminate|]. apply NoDup_cons in Hn as [Hn _]. intros ->. apply Hn. clear Hn v.
  assert (Hin : forall t p, trail a t = Some p -> forall x, x ∈ p -> x ∈ tail (preorder t)).
  { clear. induction t as [y ds IH] using rose_ind'. intros p. rewrite trail_unfold. destruct (decide (y = a)); [intros [= <-] x Hx; apply elem_of_nil in Hx as []|].
    cbn [preorder tail]. induction ds as [|d ds IHd]; [discriminate|]. apply Forall_cons in IH as [IH1 IH2]. cbn [trail_go flat_map].
    destruct (trail a d) as [p'|] eqn:E.
    - intros [= <-] x Hx. apply elem_of_app. left. apply elem_of_app in Hx as [Hx|Hx].
      + specialize (IH1 _ eq_refl _ Hx). destruct d. right. exact IH1.
      + destruct ds; [apply elem_of_nil in Hx as []|]. apply elem_of_list_singleton in Hx as ->. destruct d. left.
    - intros H x Hx. apply elem_of_app. right. exact (IHd IH2 H x Hx). }
  specialize (Hin (Rose r (map (rose_map fst) cs)) (r :: p)). rewrite trail_unfold, decide_False in Hin by assumption.
  exact (Hin Ht r ltac:(left)).
Qed.

Lemma leaf_plug {A} (t : rose A) y : y ∈ leaves t -> exists c, plug c (Rose y []) = t.
Proof.
  induction t as [z cs IH] using rose_ind'. intros Hyl. destruct cs as [|d cs].
  - apply elem_of_list_singleton in Hyl as ->. exists []. reflexivity.
  - change (y ∈ flat_map leaves (d :: cs)) in Hyl. apply elem_of_flat_map in Hyl as (e & He & Hyl). rewrite Forall_forall in IH.
    destruct (IH e He Hyl) as (c & Hc). apply elem_of_list_split in He as (ls & rs & E). rewrite E. exists (c ++ [(ls, z, rs)]).
    rewrite RoseFacts.plug_app, Hc. reflexivity.
Qed.
(** C62, for both kinds. *)
Lemma stay {V Nd} F (im : node_impl V Nd) h h' r (t t' : rose (addr * V)) m (x y : addr * V) b it l1 l2 :
  seen F im h r t -> seen F im h' r t' ->
  nth_error (leaves t) m = Some x -> tree_begin F (tree_nav im h) Leaves (Some r) = Ok b -> run F im h (repeat true m) b = Ok it ->
  leaves t' = l1 ++ y :: l2 -> fst y = fst x -> trail (fst x) (rose_map fst t') = trail (fst x) (rose_map fst t) ->
  iterate_from F im h' it Leaves (Some r) = Ok (y :: l2).
Proof.
  intros Hs Hs' Hx Eb Er El Hy Htr.
  destruct (walked F _ h _ t Hs m x Hx) as (b0 & it0 & p & Eb0 & Er0 & Hk & Hc & Hr & Ho & Hp). rewrite Eb in Eb0. injection Eb0 as <-. rewrite Er in Er0. injection Er0 as <-.
  assert (Hyl : y ∈ leaves t') by (rewrite El; apply elem_of_app; right; left).
  destruct (leaf_plug t' y Hyl) as (c & Hpl).
  destruct (step_out F _ h' _ t' Hs' c (Rose y []) p it Hpl Hk) as (k1 & k2 & Ek & Ew); [rewrite Hc, <- Hy; reflexivity|exact Hr| |exact Ho|].
  { change (raddr (Rose y [])) with (fst y). rewrite Hy, Htr. exact Hp. }
  rewrite Ew. cbn [leaves app label] in *. f_equal. f_equal. rewrite El in Ek. pose proof (seen_nd F _ h' _ t' Hs') as Hn. rewrite El in Hn.
  assert (E : map fst l1 ++ fst y :: map fst l2 = map fst k1 ++ fst y :: map fst k2) by (rewrite <- !(map_cons fst), <- !map_app; f_equal; exact Ek).
  assert (El1 : length l1 = length k1).
  { rewrite <- (map_length fst l1), <- (map_length fst k1). f_equal. rewrite map_app in Hn. exact (proj1 (NoDup_split_unique _ _ _ _ _ Hn E)). }
  apply app_inj_1 in Ek as [_ Ek]; [|exact El1]. congruence.
Qed.
(** A leaves iterator made at a node. *)
Lemma made_at {V Nd} F (im : node_impl V Nd) h r (t : rose (addr * V)) x it : seen F im h r t -> x ∈ preorder t ->
  iterator_at F im h Leaves (Some (fst x)) (Some r) = Ok it -> iterate_from F im h it Leaves (Some r) = Ok [x].
Proof.
  intros Hs Hx E. injection E as <-. pose proof (sn_size _ _ _ _ _ Hs) as HF. pose proof (sn_val _ _ _ _ _ Hs x Hx) as Hv.
  pose proof (rsize_pos t). destruct F as [|[|f]]; [lia|lia|]. unfold iterate_from, tree_end, it_end, get_instance, fix_navigator_root. cbn [mbind res_bind walk].
  unfold it_eqb at 1. cbn [it_cur it_root]. rewrite ptr_eqb_false by discriminate. cbn [andb visit]. rewrite Hv. cbn [mbind res_bind].
  unfold incr, it_incr. cbn [it_cur it_kind it_open it_root increment_impl leaves_increment mbind res_bind it_set fst snd].
  unfold it_eqb. cbn [it_cur it_root]. rewrite !ptr_eqb_true. cbn. destruct x; reflexivity.
Qed.

Lemma split_child {V} (s : rose (addr * V)) n a : nth_addr (map label (children s)) n = Some a ->
  exists q ls s0 rs, s = Rose q (ls ++ s0 :: rs) /\ length ls = n /\ raddr s0 = a.
Proof.
  destruct s as [q cs]. cbn [children]. unfold nth_addr. rewrite map_map, nth_error_map. intros E. destruct (nth_error cs n) as [s0|] eqn:E0; [|discriminate].
  apply nth_error_split in E0 as (ls & rs & -> & Hl). exists q, ls, s0, rs. split; [reflexivity|]. split; [exact Hl|]. cbn in E. injection E as <-. destruct s0 as [[? ?] ?]. reflexivity.
Qed.
Lemma in_raddrs {V} (c : ctx (addr * V)) s : raddr s ∈ raddrs (plug c s).
Proof. unfold raddrs. destruct s as [[a v] cs]. exact (elem_of_list_fmap_1 fst _ (a, v) (position_elem c (Rose (a, v) cs))). Qed.
Lemma label_root {V} (c : ctx (addr * V)) s : NoDup (raddrs (plug c s)) -> raddr s = raddr (plug c s) <-> c = [].
Proof.
  intros Hn. unfold raddrs in Hn. rewrite <- preorder_map, plug_cmap in Hn.
  assert (Hl : forall s : rose (addr * V), label (rose_map fst s) = raddr s) by (intros [[? ?] ?]; reflexivity).
  rewrite <- !Hl, plug_cmap. rewrite (label_root_iff _ _ Hn). destruct c; cbn; split; congruence.
Qed.

(** The node the iterator resumes at has no next sibling any more. *)
Lemma sibling_gone {V Nd} F (im : node_impl V Nd) h h' r (t t' s : rose (addr * V)) m x z q p ls b it :
  seen F im h r t -> seen F im h' r t' -> nav_next (tree_nav im h' (Some r)) None = Err NullDeref ->
  nth_error (leaves t) m = Some x -> tree_begin F (tree_nav im h) Leaves (Some r) = Ok b -> run F im h (repeat true m) b = Ok it ->
  trail (fst x) (rose_map fst t) = Some (q :: p) -> rsubtree (Rose z (ls ++ [s])) t' -> raddr s = q ->
  incr F im h' it = Err NullDeref.
Proof.
  intros Hs Hs' Hnull Hx Eb Er Htr Hsub Hq.
  destruct (walked F _ h _ t Hs m x Hx) as (b0 & it0 & p' & Eb0 & Er0 & Hk & Hc & Hr & Ho & Hp). rewrite Eb in Eb0. injection Eb0 as <-. rewrite Er in Er0. injection Er0 as <-.
  rewrite Htr in Hp. injection Hp as <-. apply rsubtree_plug in Hsub as (c & Hsub).
  pose proof (no_next _ _ (sn_nav _ _ _ _ _ Hs') (cmap ((ls, z, []) :: c)) (rose_map fst s)) as Hn.
  rewrite <- plug_cmap in Hn. specialize (Hn (f_equal (rose_map fst) Hsub)).
  assert (El : label (rose_map fst s) = q) by (destruct s as [[? ?] ?]; exact Hq). rewrite El in Hn.
  unfold incr, it_incr. rewrite Hc, Hk, Hr, Ho. cbn [increment_impl leaves_increment map]. rewrite Hn. cbn [cmap map ctx_next]. cbn [mbind res_bind].
  unfold keep_calling0, leaves_call. cbn in Hnull |- *. rewrite Hnull. reflexivity.
Qed.
