(** C84: extract_json parses the whole text, or else the fenced blocks. *)
From Coq Require Import String Ascii.
From Coq Require Import List Bool Arith Lia.
From Verif Require Import PyBase ModelExtract.
Import ListNotations.
Local Open Scope string_scope.
Local Open Scope nat_scope.
Local Open Scope list_scope.

(** * Vocabulary *)
Section Vocabulary.
  Variable space : nat -> bool.
  Definition all_space (l : text) : Prop := Forall (fun c => space c = true) l.
  (** b is m without the whitespace around it. *)
  Definition stripped (m b : text) : Prop :=
    exists l r, m = l ++ b ++ r /\ all_space l /\ all_space r /\
      (forall c t, b = c :: t -> space c = false) /\ (forall t c, b = t ++ [c] -> space c = false).

  (** The contents of the fenced blocks: each opens at the first opening and closes at
      the next fence; the next block is looked for behind it. *)
  Inductive blocks : text -> list text -> Prop :=
  | no_block s : (forall pre mid post, s <> pre ++ opening ++ mid ++ fence ++ post) -> blocks s []
  | a_block pre mid post b bs :
      (forall x y, pre ++ opening ++ mid ++ fence ++ post = x ++ opening ++ y -> length pre <= length x) ->
      (forall x y, mid ++ fence ++ post = x ++ fence ++ y -> length mid <= length x) ->
      stripped mid b -> blocks post bs ->
      blocks (pre ++ opening ++ mid ++ fence ++ post) (b :: bs).
End Vocabulary.

(** The code points of an ASCII text. *)
Definition code_points (s : string) : text := map nat_of_ascii (list_ascii_of_string s).

(** * Proofs *)
Lemma after_some p s r : after p s = Some r <-> s = p ++ r.
Proof.
  revert s. induction p as [|x p IH]; intros [|y s]; cbn; split; try congruence.
  - destruct (Nat.eqb_spec x y) as [->|]; [|discriminate]. intro H. apply IH in H. congruence.
  - intros [= -> ->]. rewrite Nat.eqb_refl. apply IH. reflexivity.
Qed.
Lemma after_app p r : after p (p ++ r) = Some r.
Proof. apply after_some. reflexivity. Qed.

(** Two ways to cut a list. *)
Lemma cut {A} (a b c d : list A) : a ++ b = c ++ d -> length a <= length c ->
  exists m, c = a ++ m /\ b = m ++ d.
Proof.
  revert c. induction a as [|x a IH]; intros c E L; [exists c; auto|].
  destruct c as [|y c]; cbn in *; [lia|]. injection E as -> E.
  destruct (IH c E) as (m & -> & ->); [lia|]. exists m. auto.
Qed.
Lemma cut_eq {A} (a b c d : list A) : a ++ b = c ++ d -> length a = length c -> a = c /\ b = d.
Proof.
  intros E L. destruct (cut a b c d E) as (m & -> & ->); [lia|].
  rewrite app_length in L. destruct m; cbn in L; [|lia]. rewrite app_nil_r. auto.
Qed.

Section Regex.
  Variable space : nat -> bool.
  Hypothesis tick : space 96 = false.
  Notation all_space := (all_space space).

  Fixpoint lstrip (s : text) : text :=
    match s with c :: s' => if space c then lstrip s' else s | [] => [] end.
  Lemma lstrip_split s : exists l, s = l ++ lstrip s /\ all_space l.
  Proof.
    induction s as [|c s (l & E & H)]; cbn; [exists []; split; [reflexivity|constructor]|].
    destruct (space c) eqn:Ec; [|exists []; split; [reflexivity|constructor]].
    exists (c :: l). split; [cbn; congruence|constructor; assumption].
  Qed.
  Lemma lstrip_head s c t : lstrip s = c :: t -> space c = false.
  Proof.
    induction s as [|d s IH]; cbn; [discriminate|]. destruct (space d) eqn:E; [exact IH|]. congruence.
  Qed.
  Lemma lstrip_app l s : all_space l -> lstrip (l ++ s) = lstrip s.
  Proof. induction 1 as [|c l Hc _ IH]; cbn; [reflexivity|]. rewrite Hc. exact IH. Qed.
  Lemma lstrip_fence s : lstrip (fence ++ s) = fence ++ s.
  Proof. cbn. rewrite tick. reflexivity. Qed.

  Lemma spaces_lstrip {A} s (k : text -> option A) r : k (lstrip s) = Some r -> spaces space s k = Some r.
  Proof.
    induction s as [|c s IH]; cbn; [auto|]. destruct (space c); [|auto]. intro H. rewrite (IH H). reflexivity.
  Qed.
  Lemma spaces_none {A} s (k : text -> option A) :
    (forall l t, s = l ++ t -> k t = None) -> spaces space s k = None.
  Proof.
    induction s as [|c s IH]; intro H; cbn; [apply (H [] [] eq_refl)|].
    destruct (space c); [|apply (H [] _ eq_refl)]. rewrite IH; [apply (H [] _ eq_refl)|].
    intros l t E. apply (H (c :: l) t). cbn. congruence.
  Qed.

  (** The rest of the expression behind the group. *)
  Definition closing {B} (g : B) (s : text) : option (B * text) :=
    spaces space s (fun s => match after fence s with Some s => Some (g, s) | None => None end).
  Lemma closing_spec {B} (g : B) s :
    closing g s = match after fence (lstrip s) with Some r => Some (g, r) | None => None end.
  Proof.
    unfold closing. destruct (after fence (lstrip s)) as [r|] eqn:E.
    { apply spaces_lstrip. rewrite E. reflexivity. }
    induction s as [|c s IH]; [reflexivity|]. cbn [spaces lstrip] in *.
    destruct (space c) eqn:Ec; [|rewrite E; reflexivity]. rewrite (IH E).
    unfold fence. cbn [after]. destruct (Nat.eqb_spec 96 c) as [<-|]; [congruence|reflexivity].
  Qed.

  Lemma lazily_none {A} acc s (k : text -> text -> option A) :
    (forall a l t, s = l ++ t -> k a t = None) -> lazily acc s k = None.
  Proof.
    revert acc. induction s as [|c s IH]; intros acc H; cbn; rewrite (H acc [] _ eq_refl); [reflexivity|].
    apply IH. intros a l t E. apply (H a (c :: l) t). cbn. congruence.
  Qed.
  Lemma lazily_some s : forall acc l t, s = l ++ fence ++ t ->
    exists b sp rest, lazily acc s closing = Some (acc ++ b, rest) /\ s = b ++ sp ++ fence ++ rest /\
      all_space sp /\ (forall b' c', s = b' ++ c' -> length b' < length b -> after fence (lstrip c') = None).
  Proof.
    induction s as [|c s IH]; intros acc l t E; [destruct l; discriminate|].
    cbn [lazily]. rewrite closing_spec. destruct (after fence (lstrip (c :: s))) as [rest|] eqn:Ea.
    - apply after_some in Ea. destruct (lstrip_split (c :: s)) as (sp & Es & Hsp).
      exists [], sp, rest. rewrite app_nil_r. split; [reflexivity|]. split; [cbn [app]; congruence|].
      split; [exact Hsp|]. cbn. lia.
    - destruct l as [|d l].
      { cbn [app] in E. rewrite E, lstrip_fence, after_app in Ea. discriminate. }
      injection E as <- E. destruct (IH (acc ++ [c]) l t E) as (b & sp & rest & H1 & H2 & H3 & H4).
      exists (c :: b), sp, rest. rewrite H1, <- app_assoc. split; [reflexivity|].
      split; [cbn [app]; f_equal; exact H2|]. split; [exact H3|].
      intros [|x b'] c' E' L; cbn in *; [subst c'; exact Ea|]. injection E' as -> E'.
      apply (H4 b' c' E'). lia.
  Qed.

  Lemma match_here_some s mid0 post0 : s = opening ++ mid0 ++ fence ++ post0 ->
    exists mid b post, match_here space s = Some (b, post) /\ s = opening ++ mid ++ fence ++ post /\
      stripped space mid b /\
      (forall x y, mid ++ fence ++ post = x ++ fence ++ y -> length mid <= length x).
  Proof.
    intros ->. unfold match_here. rewrite after_app. set (s := mid0 ++ fence ++ post0).
    destruct (lstrip_split s) as (l & Es & Hl).
    assert (exists t0, lstrip s = t0 ++ fence ++ post0) as (t0 & Et).
    { clear - tick. subst s. induction mid0 as [|c m IH]; [exists []; apply lstrip_fence|].
      cbn [app lstrip]. destruct (space c); [exact IH|]. exists (c :: m). reflexivity. }
    destruct (lazily_some (lstrip s) [] t0 post0 Et) as (b & sp & rest & H1 & H2 & H3 & H4).
    exists (l ++ b ++ sp), b, rest. split; [|split; [|split]].
    - apply spaces_lstrip. exact H1.
    - rewrite <- !app_assoc. rewrite Es, H2. reflexivity.
    - exists l, sp. split; [reflexivity|]. split; [exact Hl|]. split; [exact H3|]. split.
      + intros c t ->. apply (lstrip_head s c (t ++ sp ++ fence ++ rest)). rewrite H2. reflexivity.
      + intros t c ->. destruct (space c) eqn:Ec; [|reflexivity]. exfalso.
        specialize (H4 t (c :: sp ++ fence ++ rest)). rewrite H2, <- app_assoc in H4.
        cbn [lstrip] in H4. rewrite Ec, lstrip_app, lstrip_fence, after_app in H4 by exact H3.
        discriminate H4; [reflexivity|]. rewrite app_length. cbn. lia.
    - intros x y E. destruct (le_lt_dec (length (l ++ b ++ sp)) (length x)) as [|Hlt]; [assumption|exfalso].
      rewrite <- !app_assoc in E.
      (** where the other fence would stand *)
      destruct (le_lt_dec (length l) (length x)) as [Lx|Lx].
      + destruct (cut l _ x _ E Lx) as (x1 & -> & E1). rewrite !app_length in Hlt.
        destruct (le_lt_dec (length b) (length x1)) as [Lb|Lb].
        * destruct (cut b _ x1 _ E1 Lb) as (x2 & -> & E2). rewrite app_length in Hlt.
          assert (Lsp : length x2 < length sp) by lia.
          symmetry in E2. destruct (cut x2 _ sp _ E2) as (m & -> & E3); [lia|].
          destruct m as [|c m]; [rewrite app_length in Lsp; cbn in Lsp; lia|].
          injection E3 as <- _. apply Forall_app in H3. destruct H3 as [_ H3]. inversion H3. congruence.
        * specialize (H4 x1 (fence ++ y)). rewrite H2, E1, lstrip_fence, after_app in H4.
          discriminate (H4 eq_refl Lb).
      + symmetry in E. destruct (cut x _ l _ E) as (m & -> & E3); [lia|].
        destruct m as [|c m]; [rewrite app_length in Lx; cbn in Lx; lia|].
        injection E3 as <- _. apply Forall_app in Hl. destruct Hl as [_ Hl]. inversion Hl. congruence.
  Qed.

  Lemma match_here_none s : match_here space s = None ->
    forall mid post, s <> opening ++ mid ++ fence ++ post.
  Proof.
    intros H mid post E. destruct (match_here_some s mid post E) as (m & b & p & H1 & _). congruence.
  Qed.
  Lemma match_here_only s r : match_here space s = Some r ->
    exists mid post, s = opening ++ mid ++ fence ++ post.
  Proof.
    unfold match_here. destruct (after opening s) as [s'|] eqn:E; [|discriminate].
    apply after_some in E. subst s. intro H.
    assert (D : (exists l t, s' = l ++ fence ++ t) \/ ~ (exists l t, s' = l ++ fence ++ t)).
    { clear. induction s' as [|c s' IH].
      - right. intros ([|] & t & E); discriminate.
      - destruct (after fence (c :: s')) as [t|] eqn:Ea.
        { left. exists [], t. apply after_some in Ea. exact Ea. }
        destruct IH as [(l & t & ->)|IH]; [left; exists (c :: l), t; reflexivity|].
        right. intros ([|d l] & t & E).
        + cbn [app] in E. rewrite E, after_app in Ea. discriminate.
        + injection E as _ E. apply IH. exists l, t. exact E. }
    destruct D as [(l & t & ->)|D]; [exists l, t; reflexivity|]. exfalso.
    rewrite spaces_none in H; [discriminate|]. intros l t ->. apply lazily_none. intros a l' t' ->.
    fold (closing a t'). rewrite closing_spec. destruct (after fence (lstrip t')) as [q|] eqn:Ea; [|reflexivity].
    exfalso. apply after_some in Ea. destruct (lstrip_split t') as (sp & Et & _).
    apply D. exists (l ++ l' ++ sp), q. rewrite <- !app_assoc. rewrite Et at 1. rewrite Ea. reflexivity.
  Qed.

  Lemma find_from_blocks fuel : forall s, length s < fuel -> blocks space s (find_from space fuel s).
  Proof.
    induction fuel as [|fuel IH]; intros s L; [lia|]. cbn [find_from].
    destruct (match_here space s) as [[b rest]|] eqn:Em.
    - destruct (match_here_only s _ Em) as (m0 & p0 & E0).
      destruct (match_here_some s m0 p0 E0) as (mid & b' & post & H1 & H2 & H3 & H4).
      rewrite H1 in Em. injection Em as -> ->. rewrite H2.
      apply (a_block space []); [cbn; lia|exact H4|exact H3|]. apply IH.
      rewrite H2, !app_length in L. cbn in L. lia.
    - pose proof (match_here_none s Em) as Hn. clear Em. destruct s as [|c s].
      { constructor. intros [|] mid post E; discriminate. }
      cbn in L. assert (Hb := IH s ltac:(lia)). revert Hb Hn. generalize (find_from space fuel s). intros bs Hb Hn.
      inversion Hb as [s0 H0|pre mid post b bs' H1 H2 H3 H4]; subst.
      + constructor. intros [|d pre] mid post E; [exact (Hn mid post E)|].
        injection E as -> E. exact (H0 pre mid post E).
      + change (blocks space ((c :: pre) ++ opening ++ mid ++ fence ++ post) (b :: bs')).
        constructor; try assumption. intros [|d x] y E.
        * exfalso. change (c :: pre ++ opening ++ mid ++ fence ++ post)
            with ((c :: pre) ++ opening ++ mid ++ fence ++ post) in *.
          assert (E' : opening ++ y = (c :: pre ++ opening ++ mid) ++ fence ++ post).
          { cbn [app] in E |- *. rewrite <- !app_assoc. symmetry. exact E. }
          destruct (cut _ _ _ _ E') as (m & _ & ->); [cbn [length]; rewrite !app_length; cbn; lia|].
          apply (Hn m post). exact E.
        * cbn [length]. injection E as -> E. specialize (H1 x y E). lia.
  Qed.
End Regex.

Section Determined.
  Variable space : nat -> bool.
  Hypothesis tick : space 96 = false.
  Lemma stripped_fun m b b' : stripped space m b -> stripped space m b' -> b = b'.
  Proof.
    intros (l & r & E & Hl & Hr & Hh & Ht) (l' & r' & E' & Hl' & Hr' & Hh' & Ht').
    assert (Hlen : forall l r b l' r' b', l ++ b ++ r = l' ++ b' ++ r' -> all_space space l' -> all_space space r ->
              all_space space r' ->
              (forall c t, b = c :: t -> space c = false) -> (forall t c, b = t ++ [c] -> space c = false) ->
              b <> [] -> length l' <= length l /\ length (l' ++ b') >= length (l ++ b)).
    { clear. intros l r b l' r' b' E Hl' Hr Hr' Hh Ht Hb. split.
      - destruct (le_lt_dec (length l') (length l)) as [|H]; [assumption|exfalso].
        destruct b as [|c b]; [congruence|].
        destruct (cut l _ l' _ E) as (m & -> & E1); [lia|]. destruct m as [|d m].
        { rewrite app_nil_r in H. lia. }
        injection E1 as <- _. apply Forall_app in Hl'. destruct Hl' as [_ Hl']. inversion Hl'; subst.
        rewrite (Hh c b eq_refl) in *. discriminate.
      - destruct (le_lt_dec (length (l ++ b)) (length (l' ++ b'))) as [|H]; [lia|exfalso].
        destruct (@exists_last _ b Hb) as (t & c & ->).
        rewrite !app_assoc in E. symmetry in E.
        rewrite !app_length in H. cbn in H.
        destruct (cut (l' ++ b') r' ((l ++ t)) ([c] ++ r)) as (m & _ & E1).
        { repeat rewrite <- app_assoc in E. repeat rewrite <- app_assoc. exact E. }
        { rewrite !app_length. lia. }
        rewrite E1 in Hr'. apply Forall_app in Hr'. destruct Hr' as [_ Hr']. inversion Hr'; subst.
        rewrite (Ht t c eq_refl) in *. discriminate. }
    destruct b as [|c0 b0].
    - destruct b' as [|c' b']; [reflexivity|exfalso].
      rewrite E in E'. cbn [app] in E'. assert (Hall : all_space space (l ++ r)) by (apply Forall_app; auto).
      rewrite E' in Hall. apply Forall_app in Hall. destruct Hall as [_ Hall]. inversion Hall; subst.
      rewrite (Hh' c' b' eq_refl) in *. discriminate.
    - destruct b' as [|c' b'].
      { exfalso. rewrite E in E'. assert (Hall : all_space space (l' ++ r')) by (apply Forall_app; auto).
        cbn [app] in E'. rewrite <- E' in Hall. apply Forall_app in Hall. destruct Hall as [_ Hall].
        inversion Hall; subst. rewrite (Hh c0 b0 eq_refl) in *. discriminate. }
      rewrite E in E'.
      destruct (Hlen l r (c0 :: b0) l' r' (c' :: b') E' Hl' Hr Hr' Hh Ht ltac:(discriminate)) as [A1 A2].
      destruct (Hlen l' r' (c' :: b') l r (c0 :: b0) (eq_sym E') Hl Hr' Hr Hh' Ht' ltac:(discriminate)) as [B1 B2].
      destruct (cut_eq l _ l' _ E' ltac:(lia)) as [-> E2].
      rewrite !app_length in A2, B2. destruct (cut_eq _ _ _ _ E2 ltac:(lia)) as [E3 _]. exact E3.
  Qed.

  Lemma blocks_fun s bs : blocks space s bs -> forall bs', blocks space s bs' -> bs' = bs.
  Proof.
    induction 1 as [s H|pre mid post b bs H1 H2 H3 H4 IH]; intros bs' Hb.
    - inversion Hb as [|pre mid post b0 bs0]; subst; [reflexivity|]. destruct (H pre mid post eq_refl).
    - inversion Hb as [s0 H0 E|pre' mid' post' b' bs0 H1' H2' H3' H4' E]; subst.
      { destruct (H0 pre mid post eq_refl). }
      assert (Lp : length pre' = length pre).
      { apply Nat.le_antisymm; [apply (H1' pre (mid ++ fence ++ post)); exact E|].
        apply (H1 pre' (mid' ++ fence ++ post')). symmetry. exact E. }
      destruct (cut_eq _ _ _ _ E Lp) as [-> E1].
      apply (app_inv_head opening (mid' ++ fence ++ post') (mid ++ fence ++ post)) in E1.
      assert (Lm : length mid' = length mid).
      { apply Nat.le_antisymm; [apply (H2' mid post); exact E1|].
        apply (H2 mid' post'). symmetry. exact E1. }
      destruct (cut_eq _ _ _ _ E1 Lm) as [-> E2].
      apply (app_inv_head fence post' post) in E2. subst post'.
      rewrite (stripped_fun mid b' b H3' H3), (IH bs0 H4'). reflexivity.
  Qed.
End Determined.

(** * Theorems *)

(** The fences as they are written. *)
Theorem C84_fences : opening = code_points "```json" /\ fence = code_points "```".
Proof. split; reflexivity. Qed.
Print Assumptions C84_fences.

(** Every text has exactly one list of fenced blocks. *)
Theorem C84_blocks_exist : forall space s, space 96 = false ->
  exists bs, blocks space s bs /\ forall bs', blocks space s bs' -> bs' = bs.
Proof.
  intros space s H. exists (find_all space s).
  assert (B : blocks space s (find_all space s)) by (apply find_from_blocks; [exact H|lia]).
  split; [exact B|]. exact (blocks_fun space s _ B).
Qed.
Print Assumptions C84_blocks_exist.

(** A str never fails.  If the whole text parses, that is the result; otherwise the
    blocks that parse, in order; a single block counts for itself if asked for. *)
Theorem C84_text : forall J O space (parse : text -> outcome J) (parse_other : O -> outcome J) of_list one s bs,
  space 96 = false -> blocks space s bs ->
  let result := extract_json space parse parse_other of_list one (SText s) in
  (forall j, parse s = Ret j -> result = Ret j) /\
  (forall e, parse s = Raise e ->
     (one = true -> forall b, bs = [b] ->
        (forall j, parse b = Ret j -> result = Ret j) /\
        (forall e, parse b = Raise e -> result = Ret (of_list []))) /\
     (one = false \/ length bs <> 1 ->
        exists js, result = Ret (of_list js) /\
          map Ret js = filter (fun r => match r with Ret _ => true | Raise _ => false end) (map parse bs))).
Proof.
  intros J O space parse po of_list one s bs Ht Hb result. subst result. cbn [extract_json].
  assert (E : find_all space s = bs).
  { apply (blocks_fun space s bs Hb). apply find_from_blocks; [exact Ht|lia]. }
  unfold extract_text. rewrite E. split; [intros j ->; reflexivity|]. intros e ->. split.
  - intros -> b ->. split; intros x ->; reflexivity.
  - intro H. exists (flat_map (parsed parse) bs). split.
    + destruct bs as [|b [|b2 bs]]; [reflexivity| |reflexivity].
      destruct H as [-> | H]; [|destruct (H eq_refl)]. cbn. rewrite app_nil_r. reflexivity.
    + clear. induction bs as [|b bs IH]; [reflexivity|]. cbn [flat_map map filter]. unfold parsed at 1.
      destruct (parse b); cbn [app map]; rewrite IH; reflexivity.
Qed.
Print Assumptions C84_text.

(** A list of texts is the text of its lines; TypeError for anything that is neither
    and does not parse, and for a list with an item that is no text. *)
Theorem C84_other : forall J O space (parse : text -> outcome J) (parse_other : O -> outcome J) of_list one,
  let extract := extract_json space parse parse_other of_list one in
  extract (SLines []) = extract (SText []) /\
  (forall s l, extract (SLines (map Some (s :: l))) = extract (SText (s ++ flat_map (fun t => [10] ++ t) l))) /\
  (forall l, In None l -> extract (SLines l) = Raise TypeError) /\
  (forall o, extract (SOther o) = match parse_other o with Ret j => Ret j | Raise _ => Raise TypeError end).
Proof.
  intros J O space parse po of_list one extract. subst extract. split; [reflexivity|]. split; [|split].
  - intros s l. cbn [extract_json].
    replace (join (map Some (s :: l))) with (Some (s ++ flat_map (fun t => [10] ++ t) l)); [reflexivity|].
    revert s. induction l as [|t l IH]; intro s; [cbn; rewrite app_nil_r; reflexivity|].
    change (join (map Some (s :: t :: l))) with
      (match join (map Some (t :: l)) with Some b => Some (s ++ 10 :: b) | None => None end).
    rewrite <- (IH t). reflexivity.
  - intros l H. cbn [extract_json]. replace (join l) with (@None text); [reflexivity|].
    induction l as [|x l IH]; [destruct H|]. destruct l as [|y l].
    + destruct H as [->|[]]. reflexivity.
    + change (join (x :: y :: l)) with
        (match x, join (y :: l) with Some a, Some b => Some (a ++ 10 :: b) | _, _ => None end).
      destruct H as [->|H]; [reflexivity|]. rewrite <- (IH H). destruct x; reflexivity.
  - reflexivity.
Qed.
Print Assumptions C84_other.

(** JSON in one fence, with other text around it that contains no fence, is found. *)
Theorem C84_fenced : forall J O space (parse : text -> outcome J) (parse_other : O -> outcome J) of_list
    before gap1 body gap2 behind e j,
  space 96 = false ->
  (forall x y, before ++ opening ++ gap1 ++ body ++ gap2 ++ fence ++ behind = x ++ opening ++ y -> x = before) ->
  (forall x y, gap1 ++ body ++ gap2 ++ fence ++ behind = x ++ fence ++ y -> x = gap1 ++ body ++ gap2) ->
  stripped space (gap1 ++ body ++ gap2) body ->
  let s := before ++ opening ++ gap1 ++ body ++ gap2 ++ fence ++ behind in
  parse s = Raise e -> parse body = Ret j ->
  extract_json space parse parse_other of_list true (SText s) = Ret j.
Proof.
  intros J O space parse po of_list before gap1 body gap2 behind e j Ht H1 H2 H3 s Hs Hb.
  assert (B : blocks space s [body]).
  { subst s. replace (before ++ opening ++ gap1 ++ body ++ gap2 ++ fence ++ behind)
      with (before ++ opening ++ (gap1 ++ body ++ gap2) ++ fence ++ behind) by (rewrite <- !app_assoc; reflexivity).
    constructor.
    - intros x y E. rewrite <- !app_assoc in E. rewrite (H1 x y E). lia.
    - intros x y E. rewrite <- !app_assoc in E. rewrite (H2 x y E). lia.
    - exact H3.
    - constructor. intros pre mid post ->.
      specialize (H1 (before ++ opening ++ gap1 ++ body ++ gap2 ++ fence ++ pre) (mid ++ fence ++ post)).
      rewrite <- !app_assoc in H1. specialize (H1 eq_refl). apply (f_equal (@length nat)) in H1.
      rewrite !app_length in H1. cbn in H1. lia. }
  destruct (C84_text J O space parse po of_list true s [body] Ht B) as [_ T].
  destruct (T e Hs) as [T1 _]. destruct (T1 eq_refl body eq_refl) as [T2 _]. apply T2. exact Hb.
Qed.
Print Assumptions C84_fenced.

(** * Examples *)
(** Values are lists of numbers; a text parses if it is digits only. *)
Inductive jval := JNum (n : nat) | JList (l : list jval).
Definition sp (c : nat) : bool := (c =? 32) || (c =? 10).
Definition digits (s : text) : outcome jval :=
  match s with
  | [91; 93] => Ret (JList [])
  | [34; 96; 96; 96; 34] => Ret (JNum 0)           (* the JSON string of a fence *)
  | [c] => if (48 <=? c) && (c <=? 57) then Ret (JNum (c - 48)) else Raise ValueError
  | _ => Raise ValueError
  end.
Definition ext := extract_json (O := unit) sp digits (fun _ => Raise TypeError) JList.
Definition block (s : text) : text := opening ++ [10] ++ s ++ [10] ++ fence.

(** A text without JSON gives the same as the text of an empty list. *)
Theorem C84_failure_visible_refuted :
  ext true (SText [120]) = Ret (JList []) /\ ext true (SText [91; 93]) = Ret (JList []).
Proof. split; reflexivity. Qed.
Print Assumptions C84_failure_visible_refuted.
(** A fence inside a JSON string ends the block. *)
Theorem C84_fence_in_string_refuted :
  digits [34; 96; 96; 96; 34] = Ret (JNum 0) /\
  ext true (SText (block [34; 96; 96; 96; 34])) = Ret (JList []).
Proof. split; reflexivity. Qed.
Print Assumptions C84_fence_in_string_refuted.
(** Of two blocks one parses: a list of one, also if a single value was asked for. *)
Theorem C84_one_if_single_refuted :
  ext true (SText (block [49] ++ block [120])) = Ret (JList [JNum 1]).
Proof. reflexivity. Qed.
Print Assumptions C84_one_if_single_refuted.

Example C84_example :
  ext true (SText [55]) = Ret (JNum 7) /\
  ext true (SText ([120; 32] ++ block [49] ++ [120])) = Ret (JNum 1) /\
  ext false (SText ([120; 32] ++ block [49] ++ [120])) = Ret (JList [JNum 1]) /\
  ext true (SLines [Some (block [49]); Some [120]; Some (block [50])]) = Ret (JList [JNum 1; JNum 2]) /\
  ext true (SLines [Some [49]; None]) = Raise TypeError /\
  blocks sp ([120] ++ opening ++ [10; 49; 10] ++ fence ++ [120]) [[49]].
Proof.
  repeat split; try reflexivity.
  apply (find_from_blocks sp eq_refl 16). cbn. lia.
Qed.
