(** heapq keeps a heap and conserves items. *)
From Coq Require Import List Bool Arith Lia Permutation.
From Verif Require Import PyBase ModelHeap SpecHeap.
Import ListNotations.

Section Upd.
  Context {A : Type}.

  Lemma upd_length : forall i (x : A) l, length (upd i x l) = length l.
  Proof. intros i x l; revert i; induction l as [|y t IH]; intros [|i]; simpl; auto. Qed.

  Lemma nth_upd_same : forall i (x d : A) l, i < length l -> nth i (upd i x l) d = x.
  Proof. intros i x d l; revert i; induction l as [|y t IH]; intros [|i]; simpl; intros H; try lia; auto. apply IH; lia. Qed.

  Lemma nth_upd_other : forall i j (x d : A) l, i <> j -> nth j (upd i x l) d = nth j l d.
  Proof.
    intros i j x d l; revert i j; induction l as [|y t IH]; intros [|i] [|j]; simpl; intros H; try lia; auto.
  Qed.

  Lemma upd_perm : forall i (x d : A) l, i < length l -> Permutation (nth i l d :: upd i x l) (x :: l).
  Proof.
    intros i x d l; revert i; induction l as [|y t IH]; intros [|i]; simpl; intros H; try lia.
    - apply perm_swap.
    - etransitivity; [apply perm_swap|]. etransitivity; [apply perm_skip, IH; lia|]. apply perm_swap.
  Qed.

  Lemma nth_default : forall i (d d' : A) l, i < length l -> nth i l d = nth i l d'.
  Proof. intros. apply nth_indep. assumption. Qed.

  Lemma upd_swap_perm : forall i j (x d : A) h, i <> j -> i < length h -> j < length h ->
    Permutation (upd i x (upd j (nth i h d) h)) (upd j x h).
  Proof.
    intros i j x d h Hne Hi Hj. set (h1 := upd j (nth i h d) h).
    assert (H1 : Permutation (nth j h d :: h1) (nth i h d :: h)) by (apply upd_perm; exact Hj).
    assert (Hi1 : nth i h1 d = nth i h d) by (apply nth_upd_other; auto).
    assert (H2 : Permutation (nth i h1 d :: upd i x h1) (x :: h1))
      by (apply upd_perm; unfold h1; rewrite upd_length; exact Hi).
    rewrite Hi1 in H2.
    assert (H3 : Permutation (nth j h d :: upd j x h) (x :: h)) by (apply upd_perm; exact Hj).
    apply (Permutation_cons_inv (a := nth j h d)).
    apply (Permutation_cons_inv (a := nth i h d)).
    etransitivity; [apply perm_swap|]. etransitivity; [apply perm_skip; exact H2|].
    etransitivity; [apply perm_swap|]. etransitivity; [apply perm_skip; exact H1|].
    etransitivity; [apply perm_swap|]. apply perm_skip. symmetry. exact H3.
  Qed.

  Lemma upd_at_end : forall (x y : A) l, upd (length l) x (l ++ [y]) = l ++ [x].
  Proof. intros x y l; induction l as [|z t IH]; simpl; [reflexivity | rewrite IH; reflexivity]. Qed.
End Upd.

Definition par (i : nat) : nat := (i - 1) / 2.
Lemma par_lt : forall i, 0 < i -> par i < i.
Proof. intros i H. unfold par. apply Nat.div_lt_upper_bound; lia. Qed.
Lemma par_child : forall i p, 0 < i -> par i = p <-> i = 2 * p + 1 \/ i = 2 * p + 2.
Proof.
  intros i p Hi. unfold par. pose proof (Nat.div_mod (i - 1) 2). pose proof (Nat.mod_upper_bound (i - 1) 2). lia.
Qed.

Section Heap.
  Context {A : Type}.
  Variable lt : A -> A -> bool.
  Hypothesis W : weak_order lt.

  Definition le (a b : A) : Prop := lt b a = false.
  Lemma le_refl : forall a, le a a.
  Proof.
    intros a. unfold le. destruct (lt a a) eqn:E; [|reflexivity].
    pose proof (proj1 W _ _ E). congruence.
  Qed.
  Lemma le_trans : forall a b c, le a b -> le b c -> le a c.
  Proof. intros a b c H1 H2. apply (proj2 W a b c); assumption. Qed.
  Lemma lt_le : forall a b, lt a b = true -> le a b.
  Proof. intros a b H. apply (proj1 W); exact H. Qed.

  Definition heap (h : list A) : Prop :=
    forall d i, 0 < i < length h -> le (nth (par i) h d) (nth i h d).

  (** Heap property away from a hole at [pos] to be filled with [x]. *)
  Definition hole_down (h : list A) (pos : nat) (x : A) : Prop :=
    pos < length h /\
    (forall i, 0 < i < length h -> i <> pos -> par i <> pos -> le (nth (par i) h x) (nth i h x)) /\
    (forall i, 0 < i < length h -> par i = pos -> le x (nth i h x)) /\
    (forall i, 0 < i < length h -> par i = pos -> 0 < pos -> le (nth (par pos) h x) (nth i h x)).

  Lemma fill_heap : forall h pos x, hole_down h pos x -> (0 < pos -> le (nth (par pos) h x) x) ->
    heap (upd pos x h).
  Proof.
    intros h pos x (H0 & H1 & H2 & H3) Hp d i Hi. rewrite upd_length in Hi.
    rewrite (nth_default _ d x) by (rewrite upd_length; pose proof (par_lt i); lia).
    rewrite (nth_default i d x) by (rewrite upd_length; lia).
    destruct (Nat.eq_dec i pos) as [->|Hne].
    - rewrite nth_upd_same by lia. pose proof (par_lt pos). rewrite nth_upd_other by lia. apply Hp. lia.
    - rewrite (nth_upd_other pos i) by auto.
      destruct (Nat.eq_dec (par i) pos) as [Hpi|Hpi].
      + rewrite Hpi, nth_upd_same by lia. apply H2; auto.
      + rewrite nth_upd_other by auto. apply H1; auto.
  Qed.

  Lemma siftdown_ok : forall fuel h pos x, pos <= fuel -> hole_down h pos x ->
    heap (siftdown lt fuel h pos x) /\ Permutation (siftdown lt fuel h pos x) (upd pos x h).
  Proof.
    induction fuel as [|fuel IH]; intros h pos x Hf Hh.
    - assert (pos = 0) by lia; subst pos. cbn [siftdown]. split; [|apply Permutation_refl].
      apply fill_heap; [exact Hh | lia].
    - destruct pos as [|pos'].
      + cbn [siftdown]. split; [|apply Permutation_refl]. apply fill_heap; [exact Hh | lia].
      + cbn [siftdown]. change ((S pos' - 1) / 2) with (par (S pos')). set (pos := S pos') in *.
        assert (Hpl : par pos < pos) by (apply par_lt; lia).
        destruct Hh as (H0 & H1 & H2 & H3).
        destruct (lt x (nth (par pos) h x)) eqn:El.
        * assert (Hh' : hole_down (upd pos (nth (par pos) h x) h) (par pos) x).
          { split; [rewrite upd_length; lia|]. rewrite upd_length. split; [|split].
            - intros i Hi Hne Hpi. destruct (Nat.eq_dec i pos) as [->|Hip]; [congruence|].
              rewrite (nth_upd_other pos i) by auto.
              destruct (Nat.eq_dec (par i) pos) as [Hq|Hq].
              + rewrite Hq, nth_upd_same by lia. apply H3; auto. lia.
              + rewrite nth_upd_other by auto. apply H1; auto.
            - intros i Hi Hpi. destruct (Nat.eq_dec i pos) as [->|Hip].
              + rewrite nth_upd_same by lia. apply lt_le; exact El.
              + rewrite nth_upd_other by auto. apply le_trans with (nth (par pos) h x); [apply lt_le; exact El|].
                rewrite <- Hpi. apply H1; auto. lia.
            - intros i Hi Hpi Hpp.
              assert (Hpp2 : par (par pos) < par pos) by (apply par_lt; lia).
              rewrite (nth_upd_other pos (par (par pos))) by lia.
              assert (Hup : le (nth (par (par pos)) h x) (nth (par pos) h x)) by (apply H1; lia).
              destruct (Nat.eq_dec i pos) as [->|Hip].
              + rewrite nth_upd_same by lia. exact Hup.
              + rewrite nth_upd_other by auto. apply le_trans with (nth (par pos) h x); [exact Hup|].
                rewrite <- Hpi. apply H1; auto. lia. }
          destruct (IH _ (par pos) x ltac:(lia) Hh') as [I1 I2]. split; [exact I1|].
          etransitivity; [exact I2|]. apply upd_swap_perm; lia.
        * split; [|apply Permutation_refl]. apply fill_heap; [repeat split; assumption|].
          intros _. exact El.
  Qed.

  (** Hole travelling downwards: nothing is known about the children of the hole
      except that they are above its parent. *)
  Definition hole_up (h : list A) (pos : nat) (x : A) : Prop :=
    pos < length h /\
    (forall i, 0 < i < length h -> i <> pos -> par i <> pos -> le (nth (par i) h x) (nth i h x)) /\
    (forall i, 0 < i < length h -> par i = pos -> 0 < pos -> le (nth (par pos) h x) (nth i h x)).

  Lemma siftup_ok : forall fuel h pos x, length h - pos <= fuel -> hole_up h pos x ->
    heap (siftup lt fuel h pos x) /\ Permutation (siftup lt fuel h pos x) (upd pos x h).
  Proof.
    induction fuel as [|fuel IH]; intros h pos x Hf Hh; destruct Hh as (H0 & H1 & H3).
    - exfalso. lia.
    - cbn [siftup]. set (child := 2 * pos + 1).
      destruct (Nat.ltb_spec child (length h)) as [Hc|Hc].
      + set (c := if (child + 1 <? length h) && negb (lt (nth child h x) (nth (child + 1) h x))
                  then child + 1 else child).
        assert (Hcp : c < length h /\ par c = pos /\ pos < c /\
                  forall i, 0 < i < length h -> par i = pos -> le (nth c h x) (nth i h x)).
        { unfold c. destruct (Nat.ltb_spec (child + 1) (length h)) as [Hr|Hr]; simpl.
          - destruct (lt (nth child h x) (nth (child + 1) h x)) eqn:El; simpl.
            + split; [lia|]. split; [apply par_child; lia|]. split; [lia|].
              intros i Hi Hp. apply par_child in Hp; [|lia]. destruct Hp as [-> | ->].
              * apply le_refl.
              * replace (2 * pos + 2) with (child + 1) by lia. apply lt_le; exact El.
            + split; [lia|]. split; [apply par_child; lia|]. split; [lia|].
              intros i Hi Hp. apply par_child in Hp; [|lia]. destruct Hp as [-> | ->].
              * exact El.
              * replace (2 * pos + 2) with (child + 1) by lia. apply le_refl.
          - split; [lia|]. split; [apply par_child; lia|]. split; [lia|].
            intros i Hi Hp. apply par_child in Hp; [|lia]. destruct Hp as [-> | ->]; [apply le_refl | lia]. }
        clearbody c. destruct Hcp as (C1 & C2 & C3 & C4).
        destruct (IH (upd pos (nth c h x) h) c x) as [I1 I2].
        * rewrite upd_length. lia.
        * split; [rewrite upd_length; lia|]. rewrite upd_length. split.
          -- intros i Hi Hne Hpi. destruct (Nat.eq_dec i pos) as [->|Hip].
             ++ rewrite nth_upd_same by lia. pose proof (par_lt pos). rewrite nth_upd_other by lia.
                apply H3; [lia | exact C2 | lia].
             ++ rewrite (nth_upd_other pos i) by auto.
                destruct (Nat.eq_dec (par i) pos) as [Hq|Hq].
                ** rewrite Hq, nth_upd_same by lia. apply C4; auto.
                ** rewrite nth_upd_other by auto. apply H1; auto.
          -- intros i Hi Hpi _. rewrite C2, nth_upd_same by lia.
             pose proof (par_lt i). rewrite nth_upd_other by lia.
             rewrite <- Hpi. apply H1; lia.
        * split; [exact I1|]. etransitivity; [exact I2|]. apply upd_swap_perm; lia.
      + apply siftdown_ok; [lia|]. repeat split; auto.
        intros i Hi Hp. apply par_child in Hp; lia.
  Qed.

  Lemma heap_push : forall h x, heap h ->
    heap (heappush lt h x) /\ Permutation (heappush lt h x) (x :: h).
  Proof.
    intros h x Hh. unfold heappush.
    destruct (siftdown_ok (length h) (h ++ [x]) (length h) x (le_n _)) as [H1 H2].
    - split; [rewrite app_length; simpl; lia|]. rewrite app_length; simpl. split; [|split].
      + intros i Hi Hne _. pose proof (par_lt i). rewrite !app_nth1 by lia. apply Hh. lia.
      + intros i Hi Hp. apply par_child in Hp; lia.
      + intros i Hi Hp. apply par_child in Hp; lia.
    - split; [exact H1|]. etransitivity; [exact H2|]. rewrite upd_at_end.
      symmetry. apply Permutation_cons_append.
  Qed.

  Lemma heap_min : forall h x t, heap h -> h = x :: t -> minimal lt x h.
  Proof.
    intros h x t Hh ->. split; [left; reflexivity|].
    assert (G : forall n i, i <= n -> i < length (x :: t) -> le x (nth i (x :: t) x)).
    { induction n as [|n IH]; intros i Hn Hi.
      - assert (i = 0) by lia; subst. apply le_refl.
      - destruct i as [|i]; [apply le_refl|]. pose proof (par_lt (S i)).
        apply le_trans with (nth (par (S i)) (x :: t) x); [apply IH; lia | apply Hh; lia]. }
    intros y Hy. apply (In_nth _ _ x) in Hy. destruct Hy as [i [Hi <-]]. apply (G i); [lia | exact Hi].
  Qed.

  Lemma heap_pop : forall h, heap h ->
    match heappop lt h with
    | None => h = []
    | Some (x, h') => heap h' /\ Permutation h (x :: h') /\ minimal lt x h
    end.
  Proof.
    intros h Hh. unfold heappop. destruct (rev h) as [|last r] eqn:Er.
    - destruct h; [reflexivity|]. simpl in Er. destruct (rev h); discriminate.
    - assert (Hh' : h = rev r ++ [last]) by (rewrite <- (rev_involutive h), Er; reflexivity).
      destruct (rev r) as [|top t].
      + simpl in Hh'. subst h. split; [intros d i Hi; simpl in Hi; lia|]. split; [apply Permutation_refl|].
        apply (heap_min _ _ [] Hh eq_refl).
      + simpl in Hh'. subst h.
        destruct (siftup_ok (length (top :: t ++ [last])) (last :: t) 0 last) as [H1 H2].
        * simpl. rewrite app_length. simpl. lia.
        * split; [simpl; lia|]. split.
          -- intros i Hi Hne Hp. destruct i as [|i]; [lia|]. pose proof (par_lt (S i)).
             assert (Hx : forall k, 0 < k < length (last :: t) ->
                       nth k (last :: t) last = nth k (top :: t ++ [last]) last).
             { intros k Hk. destruct k as [|k]; [lia|]. simpl. simpl in Hk. rewrite app_nth1 by lia. reflexivity. }
             rewrite !Hx by lia. apply Hh. simpl in *. rewrite app_length. simpl. lia.
          -- intros i Hi Hp Hc. lia.
        * split; [exact H1|]. split; [|apply (heap_min _ _ _ Hh eq_refl)].
          simpl in H2. apply perm_skip. symmetry. etransitivity; [exact H2|].
          apply Permutation_cons_append.
  Qed.

  Lemma heap_nil : heap [].
  Proof. intros d i Hi. simpl in Hi. lia. Qed.

  (** ** The non-blocking queue *)
  Definition good (q : pq) : Prop := heap (pq_heap q).

  Theorem pq_step_bag : forall q o, good q ->
    let (q', r) := pq_step lt q o in
    good q' /\ pq_max q' = pq_max q /\ bag_step lt (pq_max q) (pq_heap q) o r (pq_heap q').
  Proof.
    intros q o Hg. destruct o; simpl.
    - unfold pq_full. destruct ((0 <? pq_max q) && (pq_max q <=? length (pq_heap q))) eqn:Ef.
      + split; [exact Hg|]. split; [reflexivity|]. split; [reflexivity | apply Permutation_refl].
      + destruct (heap_push (pq_heap q) x Hg) as [H1 H2]. simpl.
        split; [exact H1|]. split; [reflexivity|]. split; [reflexivity | exact H2].
    - pose proof (heap_pop (pq_heap q) Hg) as Hp. destruct (heappop lt (pq_heap q)) as [[x h]|].
      + destruct Hp as (H1 & H2 & H3). simpl. split; [exact H1|]. split; [reflexivity|].
        destruct (pq_heap q) as [|y t]; [destruct H3 as [[] _]|]. exists x. auto.
      + rewrite Hp. auto.
    - split; [exact Hg|]. split; [reflexivity|]. split; [reflexivity | apply Permutation_refl].
    - split; [exact Hg|]. split; [reflexivity|]. split; [|apply Permutation_refl].
      destruct (pq_heap q); reflexivity.
    - split; [exact Hg|]. split; [reflexivity|]. split; [reflexivity | apply Permutation_refl].
  Qed.

  Theorem pq_run_bag : forall ops q, good q ->
    let (q', rs) := pq_run lt q ops in
    good q' /\ bag_run lt (pq_max q) (pq_heap q) ops rs (pq_heap q').
  Proof.
    induction ops as [|o t IH]; intros q Hg; simpl; [split; [exact Hg | constructor]|].
    pose proof (pq_step_bag q o Hg) as Hs. destruct (pq_step lt q o) as [q1 r].
    destruct Hs as (G1 & M1 & B1). specialize (IH q1 G1). destruct (pq_run lt q1 t) as [q2 rs].
    destruct IH as [G2 B2]. split; [exact G2|]. rewrite M1 in B2. econstructor; eauto.
  Qed.

  Lemma bag_run_conserve : forall mx m ops rs m', bag_run lt mx m ops rs m' ->
    Permutation (m ++ items_put ops rs) (items_got rs ++ m').
  Proof.
    intros mx m ops rs m' H. induction H as [m|m o r m' os rs m'' H1 H2 IH]; simpl.
    - rewrite app_nil_r. apply Permutation_refl.
    - destruct o; simpl in H1.
      + destruct ((0 <? mx) && (mx <=? length m)); destruct H1 as [-> H1].
        * etransitivity; [|exact IH]. apply Permutation_app_tail. symmetry; exact H1.
        * etransitivity; [|exact IH]. etransitivity; [symmetry; apply Permutation_middle|].
          change (x :: m ++ items_put os rs) with ((x :: m) ++ items_put os rs).
          apply Permutation_app_tail. symmetry; exact H1.
      + destruct m as [|y t].
        * destruct H1 as [-> ->]. exact IH.
        * destruct H1 as [x [-> [_ H1]]]. simpl app at 2.
          etransitivity; [apply Permutation_app_tail; exact H1|]. simpl. apply perm_skip. exact IH.
      + destruct H1 as [-> H1]. etransitivity; [|exact IH]. apply Permutation_app_tail. symmetry; exact H1.
      + destruct H1 as [-> H1]. etransitivity; [|exact IH]. apply Permutation_app_tail. symmetry; exact H1.
      + destruct H1 as [-> H1]. etransitivity; [|exact IH]. apply Permutation_app_tail. symmetry; exact H1.
  Qed.

  (** Draining yields the items in priority order. *)
  Lemma drain_sorted : forall n q, good q -> length (pq_heap q) = n ->
    let (q', rs) := pq_run lt q (repeat GetNW n) in
    pq_heap q' = [] /\ Permutation (items_got rs) (pq_heap q) /\ sorted_by lt (items_got rs).
  Proof.
    induction n as [|n IH]; intros q Hg Hl; simpl.
    - destruct (pq_heap q); [|discriminate]. split; [reflexivity|]. split; [constructor|].
      intros i j x y _ H. destruct i; discriminate.
    - pose proof (heap_pop (pq_heap q) Hg) as Hp. destruct (heappop lt (pq_heap q)) as [[x h]|].
      + destruct Hp as (H1 & H2 & H3). specialize (IH (PQ (pq_max q) h) H1). simpl in IH.
        pose proof (Permutation_length H2) as HL. simpl in HL.
        destruct (pq_run lt (PQ (pq_max q) h) (repeat GetNW n)) as [q2 rs].
        destruct (IH ltac:(lia)) as (I1 & I2 & I3). split; [exact I1|]. simpl. split.
        * symmetry. etransitivity; [exact H2|]. apply perm_skip. symmetry; exact I2.
        * intros i j a b Hij Ha Hb. destruct j as [|j]; [lia|]. simpl in Hb. destruct i as [|i].
          -- simpl in Ha. injection Ha as <-. destruct H3 as [_ H3]. apply H3.
             apply nth_error_In in Hb. eapply Permutation_in; [symmetry; exact H2|]. right.
             eapply Permutation_in; [exact I2 | exact Hb].
          -- simpl in Ha. apply (I3 i j); auto. lia.
      + rewrite Hp in Hl. discriminate.
  Qed.
End Heap.
