(** C93: the path acreate_path makes of a directory and a file name, and what it does to
    the files. *)
From Coq Require Import String Ascii.
From Coq Require Import List Bool Arith Lia.
From Verif Require Import PyBase ModelPath.
Import ListNotations.
Local Open Scope string_scope.
Local Open Scope list_scope.

(** * Names *)
Definition without (c : ascii) (s : string) : Prop := forall a b, s <> (a ++ String c b)%string.

Lemma sapp_assoc (a b c : string) : ((a ++ b) ++ c = a ++ (b ++ c))%string.
Proof. induction a as [|x a IH]; cbn; [reflexivity|]. rewrite IH. reflexivity. Qed.
Lemma sapp_nil (a : string) : (a ++ "" = a)%string.
Proof. induction a as [|x a IH]; cbn; [reflexivity|]. rewrite IH. reflexivity. Qed.
Lemma has_false c s : has c s = false <-> without c s.
Proof.
  induction s as [|x s IH]; cbn.
  - split; [intros _ [|? ?] b; discriminate|reflexivity].
  - rewrite orb_false_iff, IH, Ascii.eqb_neq. split.
    + intros [N W] [|y a] b E; cbn in E; injection E as E1 E2; [congruence|exact (W a b E2)].
    + intro W. split; [intros ->; exact (W "" s eq_refl)|]. intros a b ->. exact (W (String x a) b eq_refl).
Qed.
Lemma has_true c s : has c s = true <-> exists a b, s = (a ++ String c b)%string.
Proof.
  induction s as [|x s IH]; cbn.
  - split; [discriminate|intros ([|? ?] & b & [=])].
  - rewrite orb_true_iff, IH, Ascii.eqb_eq. split.
    + intros [->|(a & b & ->)]; [exists "", s; reflexivity|exists (String x a), b; reflexivity].
    + intros ([|y a] & b & E); cbn in E; injection E as E1 E2; [left; congruence|right; exists a, b; exact E2].
Qed.
Lemma without_nil c : without c "".
Proof. intros [|? ?] b; discriminate. Qed.

Lemma rsplit_none c s : rsplit c s = None <-> without c s.
Proof.
  rewrite <- has_false. induction s as [|x s IH]; cbn; [tauto|].
  destruct (rsplit c s) as [[n e]|]; destruct (Ascii.eqb x c); cbn; split; try discriminate; try tauto;
    intro H; exfalso; try (apply IH in H; discriminate).
Qed.
Lemma rsplit_some c s n e : rsplit c s = Some (n, e) <-> s = (n ++ String c e)%string /\ without c e.
Proof.
  revert n. induction s as [|x s IH]; intro n; cbn.
  - split; [discriminate|]. intros [E _]. destruct n; discriminate.
  - destruct (rsplit c s) as [[n' e']|] eqn:R.
    + split.
      * intros [= <- <-]. destruct (proj1 (IH n') eq_refl) as [-> W]. auto.
      * intros [E W]. destruct n as [|y n]; cbn in E; injection E as E0 E.
        -- exfalso. subst s. apply rsplit_none in W. congruence.
        -- subst x. assert (X := proj2 (IH n) (conj E W)). injection X as -> ->. reflexivity.
    + apply rsplit_none in R. destruct (Ascii.eqb x c) eqn:X.
      * apply Ascii.eqb_eq in X. subst x. split; [intros [= <- <-]; auto|].
        intros [E W]. destruct n as [|y n]; cbn in E; [injection E as ->; reflexivity|injection E as _ E].
        exfalso. exact (R n e E).
      * apply Ascii.eqb_neq in X. split; [discriminate|]. intros [E W].
        destruct n as [|y n]; cbn in E; injection E as E1 E2; [congruence|]. exfalso. exact (R n e E2).
Qed.
Fixpoint dots (n : nat) : string := match n with 0 => "" | S n => String "." (dots n) end.
Lemma lstrip_spec s : exists n, s = (dots n ++ lstrip "." s)%string /\ forall t, lstrip "." s <> String "." t.
Proof.
  induction s as [|x s (n & E & N)]; cbn [lstrip].
  - exists 0. split; [reflexivity|discriminate].
  - destruct (Ascii.eqb x ".") eqn:X.
    + apply Ascii.eqb_eq in X. subst x. exists (S n). split; [cbn; rewrite <- E; reflexivity|exact N].
    + apply Ascii.eqb_neq in X. exists 0. split; [reflexivity|]. intros t [= -> _]. congruence.
Qed.

(** ** Splitting at slashes *)
Lemma split_not_nil c w s : split_on c w s <> [].
Proof. revert w. induction s as [|x s IH]; intro w; cbn; [discriminate|]. destruct (Ascii.eqb x c); [discriminate|apply IH]. Qed.
Lemma split_concat s : forall w, String.concat "/" (split_on "/" w s) = (w ++ s)%string.
Proof.
  induction s as [|x s IH]; intro w; cbn [split_on].
  - cbn. rewrite sapp_nil. reflexivity.
  - destruct (Ascii.eqb x "/") eqn:X.
    + apply Ascii.eqb_eq in X. subst x. specialize (IH "").
      destruct (split_on "/" "" s) as [|y l] eqn:S; [exfalso; exact (split_not_nil _ _ _ S)|].
      cbn [String.concat] in *. rewrite IH. reflexivity.
    + rewrite IH, sapp_assoc. reflexivity.
Qed.
Lemma without_snoc c w x : without c w -> x <> c -> without c (w ++ String x "").
Proof.
  intros W N. apply has_false. apply has_false in W. apply Ascii.eqb_neq in N.
  induction w as [|y w IH]; cbn in *; [rewrite N; reflexivity|].
  apply orb_false_iff in W. destruct W as [-> W]. cbn. apply IH, W.
Qed.
Lemma split_without c s : forall w, without c w -> Forall (without c) (split_on c w s).
Proof.
  induction s as [|x s IH]; intros w W; cbn; [constructor; [exact W|constructor]|].
  destruct (Ascii.eqb x c) eqn:X; [constructor; [exact W|apply IH, without_nil]|].
  apply Ascii.eqb_neq in X. apply IH, without_snoc; assumption.
Qed.
Lemma split_none c s : forall w, without c s -> split_on c w s = [(w ++ s)%string].
Proof.
  induction s as [|x s IH]; intros w W; cbn; [rewrite sapp_nil; reflexivity|].
  destruct (Ascii.eqb x c) eqn:X.
  - apply Ascii.eqb_eq in X. subst x. exfalso. exact (W "" s eq_refl).
  - rewrite IH; [rewrite sapp_assoc; reflexivity|]. intros a b ->. exact (W (String x a) b eq_refl).
Qed.
Lemma split_app c a b : forall w, split_on c w (a ++ String c b) = split_on c w a ++ split_on c "" b.
Proof.
  induction a as [|x a IH]; intro w; cbn.
  - rewrite Ascii.eqb_refl. reflexivity.
  - destruct (Ascii.eqb x c); [rewrite IH; reflexivity|apply IH].
Qed.

(** What is before and after the last slash. *)
Lemma split_dir_spec dir a f : without "/" f ->
  split_dir dir f = (dir, f) /\ split_dir dir (a ++ String "/" f) = (join dir a, f).
Proof.
  intro W. unfold split_dir. split.
  - apply has_false in W. rewrite W. reflexivity.
  - rewrite (proj2 (has_true _ _)) by eauto. rewrite split_app, (split_none _ f "" W). cbn [String.append].
    rewrite removelast_last, last_last, (split_concat a ""). reflexivity.
Qed.

(** ** The path *)
(** The name a file gets: the part before the last dot, with stamp and digits, then the
    extension. *)
Inductive extended (o : options) : string -> string -> string -> Prop :=
| x_own n e : without "." e -> extended o (n ++ String "." e) n e
| x_given f e : without "." f -> extension o = Some e -> extended o f f e
| x_none f : without "." f -> extension o = None -> extended o f f "".
Inductive suffix : string -> string -> Prop :=
| s_none : suffix "" ""
| s_ext n e : (dots n ++ e)%string <> "" -> (forall t, e <> String "." t) -> suffix (dots n ++ e) (String "." e).
Inductive stamped (o : options) : string -> string -> Prop :=
| t_none n : timestamp o = None -> stamped o n n
| t_before n ts : timestamp o = Some ts -> time_prefix o = true -> stamped o n (ts ++ "_" ++ n)
| t_after n ts : timestamp o = Some ts -> time_prefix o = false -> stamped o n (n ++ "_" ++ ts).
Inductive hashed (o : options) (hex : string) : string -> string -> Prop :=
| h_none n : hash_digits o = 0 -> hashed o hex n n
| h_some n : hash_digits o <> 0 -> hashed o hex n (n ++ "-" ++ substring 0 (hash_digits o) hex).
(** The directory and the last part of a file name with slashes. *)
Inductive located (dir : path) : string -> path -> string -> Prop :=
| l_here f : without "/" f -> located dir f dir f
| l_sub a f : without "/" f -> located dir (a ++ String "/" f) (join dir a) f.
Definition named (o : options) (hex f name : string) : Prop :=
  exists n e n1 n2 x, extended o f n e /\ stamped o n n1 /\ hashed o hex n1 n2 /\ suffix e x /\ name = (n2 ++ x)%string.

Lemma located_total dir filename : exists d f, located dir filename d f.
Proof.
  destruct (rsplit "/" filename) as [[a f]|] eqn:R.
  - apply rsplit_some in R. destruct R as [-> W]. exists (join dir a), f. constructor. exact W.
  - apply rsplit_none in R. exists dir, filename. constructor. exact R.
Qed.
Lemma located_split dir filename d f : located dir filename d f -> split_dir dir filename = (d, f).
Proof. intros [g W|a g W]; [apply (split_dir_spec dir "" g W)|apply (split_dir_spec dir a g W)]. Qed.
Lemma suffix_fun e : exists x, suffix e x /\ x = (if String.eqb e "" then "" else String "." (lstrip "." e)) /\ forall y, suffix e y -> y = x.
Proof.
  destruct (String.eqb e "") eqn:E.
  - apply String.eqb_eq in E. subst e. exists "". split; [constructor|]. split; [reflexivity|].
    intros y S. remember "" as z eqn:Z in S at 1. destruct S; [reflexivity|contradiction].
  - apply String.eqb_neq in E. destruct (lstrip_spec e) as (n & D & N). exists (String "." (lstrip "." e)).
    split; [|split; [reflexivity|]].
    + rewrite D at 1. apply s_ext; [rewrite <- D; exact E|exact N].
    + assert (LS : forall n r, (forall t, r <> String "." t) -> lstrip "." (dots n ++ r) = r).
      { clear. intros n r H. induction n as [|n IH]; cbn; [|exact IH]. destruct r as [|x r]; [reflexivity|]. cbn.
        destruct (Ascii.eqb x ".") eqn:X; [apply Ascii.eqb_eq in X; subst; exfalso; exact (H r eq_refl)|reflexivity]. }
      intros y S. clear D. destruct S as [|m r A B]; [congruence|]. rewrite LS by exact B. reflexivity.
Qed.

(** The path is the directory of the file name's last part, followed by that part with
    stamp, digits and extension; a backslash in that part is the only error. *)
Theorem C93_path dir filename o hex d f : located dir filename d f ->
  (has "\" f = true -> target dir filename o hex = Raise ValueError) /\
  (has "\" f = false -> exists name, named o hex f name /\ target dir filename o hex = Ret (join d name) /\
                                     forall name', named o hex f name' -> name' = name).
Proof.
  intro L. unfold target. rewrite (located_split _ _ _ _ L). split; intros ->; [reflexivity|].
  unfold split_ext.
  assert (X : exists n e, extended o f n e /\
                (match rsplit "." f with Some p => p | None => (f, match extension o with Some e => e | None => "" end) end) = (n, e) /\
                forall n' e', extended o f n' e' -> n' = n /\ e' = e).
  { destruct (rsplit "." f) as [[n e]|] eqn:R.
    - exists n, e. pose proof R as R'. apply rsplit_some in R. destruct R as [-> W]. split; [constructor; exact W|]. split; [reflexivity|].
      intros n' e' X. remember (n ++ String "." e)%string as z eqn:Z. destruct X as [n' e' W'|f e' W' _|f W' _].
      + assert (Q : rsplit "." (n' ++ String "." e') = Some (n', e')) by (apply rsplit_some; auto).
        rewrite R' in Q. injection Q as -> ->. auto.
      + exfalso. exact (W' _ _ Z).
      + exfalso. exact (W' _ _ Z).
    - pose proof R as R'. apply rsplit_none in R. destruct (extension o) as [e|] eqn:E.
      + exists f, e. split; [apply x_given; assumption|]. split; [reflexivity|].
        intros n' e' X. destruct X as [n' e' W'|f e' W' E'|f W' E']; [exfalso; exact (R n' e' eq_refl)| |]; split; congruence.
      + exists f, "". split; [apply x_none; assumption|]. split; [reflexivity|].
        intros n' e' X. destruct X as [n' e' W'|f e' W' E'|f W' E']; [exfalso; exact (R n' e' eq_refl)| |]; split; congruence. }
  destruct X as (n & e & XE & -> & XU). destruct (suffix_fun e) as (x & SX & -> & SU).
  eexists. split; [|split; [reflexivity|]].
  - exists n, e. unfold decorate.
    assert (ST : stamped o n match timestamp o with Some ts => if time_prefix o then (ts ++ "_" ++ n)%string else (n ++ "_" ++ ts)%string | None => n end).
    { destruct (timestamp o) as [ts|] eqn:T; [destruct (time_prefix o) eqn:P|]; constructor; assumption. }
    eexists. eexists. eexists. split; [exact XE|]. split; [exact ST|]. split; [|split; [exact SX|reflexivity]].
    destruct (hash_digits o) as [|k] eqn:H; [apply h_none; exact H|].
    change (Nat.ltb 0 (S k)) with true. cbn match. rewrite <- H. apply h_some. congruence.
  - intros name' (n' & e' & n1 & n2 & x' & XE' & ST & HS & SX' & ->).
    destruct (XU _ _ XE') as [-> ->]. rewrite (SU _ SX'). f_equal. unfold decorate.
    assert (E1 : n1 = match timestamp o with Some ts => if time_prefix o then (ts ++ "_" ++ n)%string else (n ++ "_" ++ ts)%string | None => n end).
    { destruct ST as [n T|n ts T P|n ts T P]; rewrite T; [reflexivity| |]; rewrite P; reflexivity. }
    rewrite <- E1. destruct HS as [n1 H|n1 H].
    + rewrite H. reflexivity.
    + destruct (Nat.ltb 0 (hash_digits o)) eqn:LT; [reflexivity|]. apply Nat.ltb_ge in LT. lia.
Qed.

(** The parts of a path: joined with a text that does not begin with a slash, those of the
    directory and then those of the text, in order, without empty ones and single dots. *)
Lemma root_slash s : root_of s = "" <-> forall t, s <> String "/" t.
Proof.
  split.
  - intros H t ->. destruct t as [|a [|b t]]; cbn in H; [discriminate| |];
      destruct a as [[] [] [] [] [] [] [] []]; try discriminate;
      destruct b as [[] [] [] [] [] [] [] []]; discriminate.
  - intro H. destruct s as [|a s]; [reflexivity|].
    destruct a as [[] [] [] [] [] [] [] []]; try reflexivity. exfalso. exact (H s eq_refl).
Qed.
Definition parts_of (s : string) (l : list string) : Prop :=
  exists segs, s = String.concat "/" segs /\ segs <> [] /\ Forall (without "/") segs /\
    l = filter proper segs.
Theorem C93_join dir s : (forall t, s <> String "/" t) ->
  root (join dir s) = root dir /\ exists l, parts_of s l /\ parts (join dir s) = parts dir ++ l.
Proof.
  intro N. unfold join. apply root_slash in N. cbn [root parse]. rewrite N. cbn. split; [reflexivity|].
  exists (filter proper (split_on "/" "" s)). split; [|reflexivity].
  exists (split_on "/" "" s). split; [symmetry; apply (split_concat s "")|]. split; [apply split_not_nil|].
  split; [apply split_without, without_nil|reflexivity].
Qed.

(** * Files *)
(** Sensible files: the root is a directory and everything is in a directory. *)
Definition sensible (fs : files) : Prop :=
  fs [] = Some Dir /\ forall n l, fs (n :: l) <> None -> fs l = Some Dir.
(** Where the names lead, existing or not. *)
Definition go (l : loc) (ps : list string) : loc := fold_left step ps l.
Definition prefix (q ps : list string) : Prop := exists r, ps = q ++ r.

Lemma prefix_snoc q ps p : prefix q (ps ++ [p]) <-> prefix q ps \/ q = ps ++ [p].
Proof.
  split.
  - intros [r E]. destruct r as [|x r _] using rev_ind.
    + right. rewrite app_nil_r in E. congruence.
    + rewrite app_assoc in E. apply app_inj_tail in E. destruct E as [-> _]. left. exists r. reflexivity.
  - intros [[r ->]| ->]; [exists (r ++ [p]); rewrite app_assoc; reflexivity|exists []; rewrite app_nil_r; reflexivity].
Qed.
Lemma prefix_refl ps : prefix ps ps.
Proof. exists []. rewrite app_nil_r. reflexivity. Qed.
Lemma prefix_longer q ps : prefix q ps -> length q <= length ps.
Proof. intros [r ->]. rewrite app_length. lia. Qed.
Lemma proper_snoc q ps p : prefix q (ps ++ [p]) /\ q <> ps ++ [p] <-> prefix q ps.
Proof.
  rewrite prefix_snoc. split; [tauto|]. intro H. split; [auto|]. intros ->.
  apply prefix_longer in H. rewrite app_length in H. cbn in H. lia.
Qed.
Lemma go_snoc l ps p : go l (ps ++ [p]) = step (go l ps) p.
Proof. unfold go. rewrite fold_left_app. reflexivity. Qed.
Lemma walk_snoc fs p ps : forall l, walk fs l (ps ++ [p]) =
  match walk fs l ps with
  | At m => match fs m with Some Dir => At (step m p) | Some File => NotDir | None => Missing end
  | x => x
  end.
Proof.
  induction ps as [|x ps IH]; intro l; cbn [app walk].
  - destruct (fs l) as [[]|]; reflexivity.
  - destruct (fs l) as [[]|]; [apply IH|reflexivity|reflexivity].
Qed.
Lemma walk_at fs l ps m : walk fs l ps = At m ->
  m = go l ps /\ forall q, prefix q ps -> q <> ps -> fs (go l q) = Some Dir.
Proof.
  revert m. induction ps as [|p ps IH] using rev_ind; intro m.
  - cbn. intros [= <-]. split; [reflexivity|]. intros q [r E] N. destruct q; [congruence|discriminate].
  - rewrite walk_snoc. destruct (walk fs l ps) as [k| |] eqn:W; try discriminate.
    destruct (IH k eq_refl) as [-> D]. destruct (fs (go l ps)) as [[]|] eqn:F; try discriminate. intros [= <-].
    rewrite go_snoc. split; [reflexivity|]. intros q P N. destruct (proj1 (proper_snoc q ps p) (conj P N)) as [r E].
    destruct (list_eq_dec string_dec q ps) as [->|NE]; [exact F|]. apply D; [exists r; exact E|exact NE].
Qed.
Lemma walk_dirs fs l ps : (forall q, prefix q ps -> q <> ps -> fs (go l q) = Some Dir) -> walk fs l ps = At (go l ps).
Proof.
  induction ps as [|p ps IH] using rev_ind; intro H; [reflexivity|]. rewrite walk_snoc, IH.
  - rewrite (H ps), go_snoc; [reflexivity| |]; apply (proper_snoc ps ps p), prefix_refl.
  - intros q P N. apply H; apply (proper_snoc q ps p), P.
Qed.
Lemma walk_notdir fs l ps : walk fs l ps = NotDir -> exists q, prefix q ps /\ fs (go l q) = Some File.
Proof.
  induction ps as [|p ps IH] using rev_ind; [discriminate|]. rewrite walk_snoc.
  destruct (walk fs l ps) as [m| |] eqn:W; try discriminate.
  - destruct (fs m) as [[]|] eqn:F; try discriminate. intros _. apply walk_at in W. destruct W as [-> _].
    exists ps. split; [apply prefix_snoc; left; apply prefix_refl|exact F].
  - intros _. destruct (IH eq_refl) as (q & P & F). exists q. split; [apply prefix_snoc; auto|exact F].
Qed.

(** ** What making the directories does *)
Definition extends (fs fs' : files) (s : loc) (ps : list string) : Prop :=
  forall l, fs' l = fs l \/ (fs l = None /\ fs' l = Some Dir /\ exists q, prefix q ps /\ go s q = l).
Definition all_dirs (fs : files) (s : loc) (ps : list string) : Prop := forall q, prefix q ps -> fs (go s q) = Some Dir.

Lemma extends_refl fs s ps : extends fs fs s ps.
Proof. intro l. auto. Qed.
Lemma os_mkdir_inl fs s ps fs' : os_mkdir fs s ps = inl fs' ->
  extends fs fs' s ps /\ all_dirs fs' s ps /\ fs (go s ps) = None /\ (sensible fs -> fs s = Some Dir -> sensible fs').
Proof.
  unfold os_mkdir. destruct (walk fs s ps) as [l| |] eqn:W; try discriminate.
  destruct (walk_at _ _ _ _ W) as [-> D]. destruct (fs (go s ps)) eqn:F; [discriminate|]. intros [= <-]. unfold loc_eqb.
  split; [|split; [|split]].
  - intro m. destruct (list_eq_dec string_dec m (go s ps)) as [->|N]; [right|left; reflexivity].
    split; [exact F|]. split; [reflexivity|]. exists ps. split; [apply prefix_refl|reflexivity].
  - intros q P. destruct (list_eq_dec string_dec (go s q) (go s ps)) as [E|N]; [reflexivity|].
    apply D; [exact P|]. intros ->. congruence.
  - reflexivity.
  - intros [R S] FS. split.
    + destruct (list_eq_dec string_dec [] (go s ps)); [reflexivity|exact R].
    + intros n l H. destruct (list_eq_dec string_dec l (go s ps)) as [->|N]; [reflexivity|].
      destruct (list_eq_dec string_dec (n :: l) (go s ps)) as [E|N']; [|apply (S n), H].
      (* the new directory is in an old one *)
      clear H. destruct ps as [|p ps _] using rev_ind; [cbn in F; congruence|].
      assert (DM : fs (go s ps) = Some Dir) by (apply D; apply (proper_snoc ps ps p), prefix_refl).
      rewrite go_snoc in E, F. unfold step in E, F. destruct (String.eqb p "..").
      * exfalso. destruct (go s ps) as [|x m]; [cbn in F; congruence|]. cbn in F. rewrite (S x m) in F; [discriminate|congruence].
      * injection E as _ ->. exact DM.
Qed.

Lemma is_dir_spec fs s ps : is_dir fs s ps = true <-> all_dirs fs s ps.
Proof.
  unfold is_dir. split.
  - destruct (walk fs s ps) as [l| |] eqn:W; try discriminate. destruct (walk_at _ _ _ _ W) as [-> D].
    destruct (fs (go s ps)) as [[]|] eqn:F; try discriminate. intros _ q P.
    destruct (list_eq_dec string_dec q ps) as [->|N]; [exact F|apply D; assumption].
  - intro H. rewrite walk_dirs by (intros q P _; apply H, P). rewrite (H ps (prefix_refl ps)). reflexivity.
Qed.
Lemma exists_spec fs s ps : (forall q, prefix q ps -> q <> ps -> fs (go s q) = Some Dir) ->
  exists_ fs s ps = match fs (go s ps) with Some _ => true | None => false end.
Proof. intro H. unfold exists_. rewrite walk_dirs by exact H. reflexivity. Qed.

Lemma mkdir1_spec fs s ps ok fs' r : mkdir1 fs s ps ok = (fs', r) ->
  extends fs fs' s ps /\ (sensible fs -> fs s = Some Dir -> sensible fs') /\
  (r = None -> all_dirs fs' s ps /\ (ok = false -> fs (go s ps) = None)).
Proof.
  unfold mkdir1. destruct (os_mkdir fs s ps) as [fs1|e] eqn:M.
  - intros [= <- <-]. apply os_mkdir_inl in M. tauto.
  - intro H. assert (Q : fs' = fs /\ (r = None -> ok = true /\ is_dir fs s ps = true)).
    { destruct e; injection H as <- <-; (split; [reflexivity|]); try discriminate;
        intro H; destruct (ok && is_dir fs s ps) eqn:X; try discriminate; apply andb_true_iff, X. }
    destruct Q as [-> Q]. split; [apply extends_refl|]. split; [auto|]. intro R. destruct (Q R) as [-> D].
    apply is_dir_spec in D. split; [exact D|discriminate].
Qed.

Lemma extends_mono fs fs' s ps qs : extends fs fs' s ps -> prefix ps qs -> extends fs fs' s qs.
Proof.
  intros H [r ->] l. destruct (H l) as [E|(A & B & q & [r' ->] & C)]; [auto|]. right. repeat split; try assumption.
  exists q. split; [exists (r' ++ r); rewrite app_assoc; reflexivity|exact C].
Qed.
Lemma extends_trans fs1 fs2 fs3 s ps : extends fs1 fs2 s ps -> extends fs2 fs3 s ps -> extends fs1 fs3 s ps.
Proof.
  intros H K l. destruct (K l) as [E|(A & B & C)].
  - rewrite E. apply H.
  - right. destruct (H l) as [E|(A' & B' & C')]; [rewrite E in A; auto|congruence].
Qed.
Lemma extends_kept fs fs' s ps l k : extends fs fs' s ps -> fs l = Some k -> fs' l = Some k.
Proof. intros H F. destruct (H l) as [E|(A & _)]; congruence. Qed.

Lemma mkdirs_spec fs s rps : forall ok fs' r, mkdirs fs s rps ok = (fs', r) ->
  extends fs fs' s (rev rps) /\ (sensible fs -> fs s = Some Dir -> sensible fs') /\
  (r = None -> all_dirs fs' s (rev rps) /\ (ok = false -> fs (go s (rev rps)) = None)).
Proof.
  induction rps as [|p rps IH]; intros ok fs' r H.
  - apply mkdir1_spec. unfold mkdir1. cbn [mkdirs rev] in *. destruct (os_mkdir fs s []) as [fs1|e] eqn:M; [exact H|].
    destruct e; try exact H.
    unfold os_mkdir in M. cbn in M. destruct (fs s); discriminate.
  - cbn [mkdirs] in H. set (ps := rev (p :: rps)) in *.
    destruct (os_mkdir fs s ps) as [fs1|e] eqn:M.
    + apply (mkdir1_spec fs s ps ok). unfold mkdir1. rewrite M. exact H.
    + assert (C : e = FileNotFound \/ mkdir1 fs s ps ok = (fs', r)).
      { unfold mkdir1. rewrite M. destruct e; auto. }
      destruct C as [->|C]; [|apply (mkdir1_spec fs s ps ok), C].
      destruct (mkdirs fs s rps true) as [fs1 [e|]] eqn:R; destruct (IH true fs1 _ R) as (E & S & D).
      * injection H as <- <-. split; [|split; [exact S|discriminate]].
        apply (extends_mono _ _ _ (rev rps)); [exact E|]. exists [p]. reflexivity.
      * assert (E' : extends fs fs1 s ps) by (apply (extends_mono _ _ _ (rev rps)); [exact E|exists [p]; reflexivity]).
        destruct (mkdir1_spec _ _ _ _ _ _ H) as (E2 & S2 & D2).
        split; [apply (extends_trans _ _ _ _ _ E' E2)|]. split.
        -- intros SF FS. apply S2; [apply S; assumption|]. apply (extends_kept _ _ _ _ _ _ E' FS).
        -- intro N. destruct (D2 N) as [A B]. split; [exact A|]. intro OK. specialize (B OK).
           destruct (E' (go s ps)) as [X|(X & _)]; congruence.
Qed.
Lemma mkdirs_succeeds fs s rps : fs s = Some Dir -> (forall q, prefix q (rev rps) -> fs (go s q) <> Some File) ->
  exists fs', mkdirs fs s rps true = (fs', None).
Proof.
  intro FS. induction rps as [|p rps IH]; intro NF.
  - cbn. unfold os_mkdir, is_dir. cbn. rewrite FS. eauto.
  - cbn [mkdirs]. set (ps := rev (p :: rps)) in *.
    assert (DEC : forall gs, extends fs gs s ps -> (forall q, prefix q ps -> q <> ps -> gs (go s q) = Some Dir) ->
                  exists fs', mkdir1 gs s ps true = (fs', None)).
    { intros gs E D. unfold mkdir1, os_mkdir, is_dir. rewrite walk_dirs by exact D.
      destruct (gs (go s ps)) as [[]|] eqn:G; cbn.
      - eauto.
      - exfalso. destruct (E (go s ps)) as [X|(X & Y & _)]; [|congruence]. apply (NF ps (prefix_refl ps)). congruence.
      - eauto. }
    assert (PS : ps = rev rps ++ [p]) by reflexivity.
    destruct (os_mkdir fs s ps) as [fs1|e] eqn:M; [eauto|].
    assert (C : e = FileNotFound \/ exists fs', mkdir1 fs s ps true = (fs', None)).
    { destruct e; auto; right.
      - apply DEC; [apply extends_refl|]. unfold os_mkdir in M. destruct (walk fs s ps) eqn:W; [|discriminate|discriminate].
        apply walk_at in W. apply W.
      - exfalso. unfold os_mkdir in M. destruct (walk fs s ps) eqn:W; [destruct (fs l); discriminate|discriminate|].
        apply walk_notdir in W. destruct W as (q & P & F). exact (NF q P F).
      - exfalso. unfold os_mkdir in M. destruct (walk fs s ps); [destruct (fs l)| |]; discriminate.
      - exfalso. unfold os_mkdir in M. destruct (walk fs s ps); [destruct (fs l)| |]; discriminate. }
    destruct C as [->|[fs' C]].
    + destruct IH as [fs1 R]; [intros q P; apply NF; rewrite PS; apply prefix_snoc; auto|]. rewrite R.
      destruct (mkdirs_spec _ _ _ _ _ _ R) as (E & _ & D). destruct (D eq_refl) as [AD _]. apply DEC.
      * apply (extends_mono _ _ _ (rev rps)); [exact E|exists [p]; exact PS].
      * intros q P N. apply AD. apply (proper_snoc q (rev rps) p). rewrite <- PS. auto.
    + unfold mkdir1 in C. rewrite M in C. destruct e; eauto. discriminate.
Qed.

(** * acreate_path *)
Definition parent (p : path) : list string := removelast (parts p).
Lemma parent_spec p : parts p = [] \/ exists x, parts p = parent p ++ [x].
Proof.
  unfold parent. destruct (parts p) as [|y l]; [auto|]. right. exists (last (y :: l) y). apply app_removelast_last. discriminate.
Qed.
Lemma proper_parent p q : prefix q (parts p) -> q <> parts p -> prefix q (parent p).
Proof.
  intros P N. destruct (parent_spec p) as [E|[x E]].
  - rewrite E in *. destruct P as [r R]. destruct q; [congruence|discriminate].
  - rewrite E in *. apply (proper_snoc q (parent p) x). auto.
Qed.

(** Nothing that was there changes; what is new are directories on the way to the path,
    whatever the outcome. *)
Theorem C93_files fs cwd dir filename o hex t fs' r : sensible fs -> fs cwd = Some Dir ->
  acreate_path fs cwd dir filename o hex t = (fs', r) ->
  sensible fs' /\
  forall l, fs' l = fs l \/
    (fs l = None /\ fs' l = Some Dir /\
     exists p q, target dir filename o hex = Ret p /\ prefix q (parent p) /\ go (start cwd p) q = l).
Proof.
  intros SF FC. unfold acreate_path. destruct (target dir filename o hex) as [p|]; [|intros [= <- <-]; auto].
  assert (FS : fs (start cwd p) = Some Dir) by (unfold start; destruct (String.eqb (root p) ""); [exact FC|apply SF]).
  intro H. destruct t; [|injection H as <- <-; auto|];
    (destruct (mkdirs fs (start cwd p) (rev (removelast (parts p))) (dir_exist_ok o)) as [fs1 e] eqn:M;
     destruct (mkdirs_spec _ _ _ _ _ _ M) as (E & S & _); rewrite rev_involutive in E;
     assert (fs' = fs1) as -> by (destruct e; [congruence|]; try (destruct (_ && _)); congruence);
     split; [apply S; assumption|]; intro l; destruct (E l) as [X|(A & B & q & P & G)]; [left; exact X|right; eauto 9]).
Qed.

(** A path that is returned is the one that is meant, its directory is there, and unless
    file_exist_ok nothing is at the path; without dir_exist_ok its directory is new. *)
Theorem C93_done fs cwd dir filename o hex t fs' p :
  acreate_path fs cwd dir filename o hex t = (fs', inl p) ->
  t = Never /\ target dir filename o hex = Ret p /\ all_dirs fs' (start cwd p) (parent p) /\
  (file_exist_ok o = false -> fs' (go (start cwd p) (parts p)) = None) /\
  (dir_exist_ok o = false -> fs (go (start cwd p) (parent p)) = None).
Proof.
  unfold acreate_path. destruct (target dir filename o hex) as [p'|]; [|discriminate]. intro H.
  destruct t; [| discriminate |destruct (mkdirs _ _ _ _) as [? []]; discriminate].
  destruct (mkdirs fs (start cwd p') (rev (removelast (parts p'))) (dir_exist_ok o)) as [fs1 [e|]] eqn:M; [discriminate|].
  destruct (mkdirs_spec _ _ _ _ _ _ M) as (E & S & D). destruct (D eq_refl) as [AD N]. rewrite rev_involutive in *.
  fold (parent p') in *.
  rewrite exists_spec in H by (intros q P Q; apply AD, proper_parent; assumption).
  assert (Q : fs' = fs1 /\ p' = p /\ (file_exist_ok o = false -> fs1 (go (start cwd p') (parts p')) = None)).
  { destruct (fs1 (go (start cwd p') (parts p'))) eqn:F; destruct (file_exist_ok o); cbn in H; try discriminate;
      injection H as <- <-; repeat split; discriminate. }
  destruct Q as (-> & -> & Q). auto.
Qed.

(** It succeeds if it may: no file is where a directory is needed, existing directories
    are accepted and nothing is at the path. *)
Theorem C93_succeeds fs cwd dir filename o hex p : sensible fs -> fs cwd = Some Dir ->
  target dir filename o hex = Ret p -> dir_exist_ok o = true ->
  (forall q, prefix q (parent p) -> fs (go (start cwd p) q) <> Some File) ->
  (file_exist_ok o = true \/
   (fs (go (start cwd p) (parts p)) = None /\ forall q, prefix q (parent p) -> go (start cwd p) q <> go (start cwd p) (parts p))) ->
  exists fs', acreate_path fs cwd dir filename o hex Never = (fs', inl p).
Proof.
  intros SF FC T DO NF FE. unfold acreate_path. rewrite T, DO.
  assert (FS : fs (start cwd p) = Some Dir) by (unfold start; destruct (String.eqb (root p) ""); [exact FC|apply SF]).
  destruct (mkdirs_succeeds fs (start cwd p) (rev (parent p)) FS) as [fs1 M]; [rewrite rev_involutive; exact NF|].
  unfold parent in M. rewrite M.
  destruct (mkdirs_spec _ _ _ _ _ _ M) as (E & S & D). destruct (D eq_refl) as [AD _]. rewrite rev_involutive in *.
  fold (parent p) in *.
  rewrite exists_spec by (intros q P Q; apply AD, proper_parent; assumption).
  exists fs1. destruct FE as [->|[N U]]; [destruct (fs1 _); reflexivity|].
  destruct (E (go (start cwd p) (parts p))) as [X|(_ & _ & q & P & G)]; [rewrite X, N; reflexivity|].
  exfalso. exact (U q P G).
Qed.

(** The path is not reserved: until the caller makes the file, the next call with the same
    stamp and digits returns the same path. *)
Theorem C93_not_reserved fs cwd dir filename o hex fs' p :
  dir_exist_ok o = true ->
  acreate_path fs cwd dir filename o hex Never = (fs', inl p) ->
  acreate_path fs' cwd dir filename o hex Never = (fs', inl p).
Proof.
  intros DO H. destruct (C93_done _ _ _ _ _ _ _ _ _ H) as (_ & T & AD & FE & _).
  unfold acreate_path. rewrite T, DO. fold (parent p).
  assert (M : mkdirs fs' (start cwd p) (rev (parent p)) true = (fs', None)).
  { assert (I : is_dir fs' (start cwd p) (parent p) = true) by (apply is_dir_spec, AD).
    assert (O : os_mkdir fs' (start cwd p) (parent p) = inr FileExists).
    { unfold os_mkdir. rewrite walk_dirs by (intros q P _; apply AD, P). rewrite (AD _ (prefix_refl _)). reflexivity. }
    rewrite <- (rev_involutive (parent p)) in O, I. destruct (rev (parent p)) as [|x r]; cbn [mkdirs]; rewrite O, I; reflexivity. }
  rewrite M. rewrite exists_spec by (intros q P Q; apply AD, proper_parent; assumption).
  destruct (file_exist_ok o); [destruct (fs' _); reflexivity|]. rewrite FE by reflexivity. reflexivity.
Qed.

(** A timeout that strikes is a TimeoutError, unless the name or a directory is refused. *)
Theorem C93_timeout fs cwd dir filename o hex t fs' r p : t <> Never -> target dir filename o hex = Ret p ->
  acreate_path fs cwd dir filename o hex t = (fs', r) ->
  r = inr TimedOut \/
  (t = BeforeExists /\ exists e, r = inr e /\ mkdirs fs (start cwd p) (rev (parent p)) (dir_exist_ok o) = (fs', Some e)).
Proof.
  intros N T. unfold acreate_path. rewrite T. fold (parent p). destruct t; [congruence|intros [= <- <-]; auto|].
  destruct (mkdirs _ _ _ _) as [fs1 [e|]] eqn:M; intros [= <- <-]; [right; eauto|auto].
Qed.

(** * Staying in the directory *)
Definition inside (dir p : path) : Prop :=
  root p = root dir /\ exists r, parts p = parts dir ++ r /\ ~ In ".." r.

Lemma concat_snoc segs f : segs <> [] -> String.concat "/" (segs ++ [f]) = (String.concat "/" segs ++ String "/" f)%string.
Proof.
  induction segs as [|x segs IH]; [congruence|]. intros _. destruct segs as [|y segs]; [reflexivity|].
  change ((x :: y :: segs) ++ [f]) with (x :: (y :: segs) ++ [f]).
  assert (E : String.concat "/" (x :: (y :: segs) ++ [f]) = (x ++ "/" ++ String.concat "/" ((y :: segs) ++ [f]))%string) by reflexivity.
  rewrite E, IH by discriminate.
  change (String.concat "/" (x :: y :: segs)) with (x ++ "/" ++ String.concat "/" (y :: segs))%string.
  rewrite !sapp_assoc. reflexivity.
Qed.
Lemma without_app c a b : without c a -> without c b -> without c (a ++ b).
Proof.
  rewrite <- !has_false. intros A B. induction a as [|x a IH]; [exact B|]. cbn in *.
  apply orb_false_iff in A. destruct A as [-> A]. cbn. apply IH, A.
Qed.
Lemma without_app_inv c a b : without c (a ++ b) -> without c a /\ without c b.
Proof.
  rewrite <- !has_false. intro H. induction a as [|x a IH]; [auto|]. cbn in *.
  apply orb_false_iff in H. destruct H as [-> H]. apply IH in H. cbn. tauto.
Qed.
Lemma join_inside dir s : (forall t, s <> String "/" t) -> (forall l, parts_of s l -> ~ In ".." l) -> inside dir (join dir s).
Proof.
  intros N D. destruct (C93_join dir s N) as (R & l & P & E). split; [exact R|]. exists l. split; [exact E|apply D, P].
Qed.
Lemma inside_trans a b c : inside a b -> inside b c -> inside a c.
Proof.
  intros [R (r & E & N)] [R' (r' & E' & N')]. split; [congruence|]. exists (r ++ r'). rewrite E', E, app_assoc. split; [reflexivity|].
  rewrite in_app_iff. tauto.
Qed.

(** A file name that does not begin with a slash, has no part ".." and does not end in a
    part of three dots stays in the directory, if the stamp, the digits and the extension
    have no slashes. *)
Theorem C93_inside dir filename o hex p d f :
  target dir filename o hex = Ret p -> located dir filename d f ->
  (forall t, filename <> String "/" t) -> (forall l, parts_of filename l -> ~ In ".." l) -> f <> "..." ->
  (forall ts, timestamp o = Some ts -> without "/" ts) -> (forall e, extension o = Some e -> without "/" e) ->
  without "/" (substring 0 (hash_digits o) hex) ->
  inside dir p.
Proof.
  intros T L NS ND N3 TS EX HX.
  assert (BS : has "\" f = false).
  { destruct (has "\" f) eqn:B; [|reflexivity]. destruct (C93_path dir filename o hex d f L) as [H _]. rewrite (H B) in T. discriminate. }
  destruct (C93_path dir filename o hex d f L) as [_ H]. destruct (H BS) as (name & NM & E & _). rewrite E in T. injection T as <-.
  assert (FW : without "/" f) by (destruct L; assumption).
  assert (ID : inside dir d).
  { destruct L as [f W|a f W].
    - split; [reflexivity|]. exists []. rewrite app_nil_r. auto.
    - apply join_inside.
      + intros t ->. apply (NS (t ++ String "/" f)%string). reflexivity.
      + intros l (segs & -> & NE & FS & ->) I. apply (ND (filter proper (segs ++ [f]))).
        * exists (segs ++ [f]). split; [symmetry; apply concat_snoc, NE|]. split; [destruct segs; discriminate|].
          split; [apply Forall_app; auto|reflexivity].
        * rewrite filter_app, in_app_iff. auto. }
  apply (inside_trans _ d); [exact ID|].
  destruct NM as (n & e & n1 & n2 & x & XE & ST & HS & SX & ->).
  assert (WN : without "/" n /\ without "/" e).
  { destruct XE as [n e W|f e W X|f W X].
    - apply without_app_inv in FW. destruct FW as [A B]. change (String "." e) with ("." ++ e)%string in B.
      apply without_app_inv in B. tauto.
    - split; [exact FW|apply EX, X].
    - split; [exact FW|apply without_nil]. }
  assert (U : without "/" "_") by (apply has_false; reflexivity).
  assert (W1 : without "/" n1).
  { destruct ST as [n ?|n ts X ?|n ts X ?]; [tauto| |]; repeat apply without_app; try tauto; apply TS, X. }
  assert (W2 : without "/" n2).
  { destruct HS; [exact W1|]. repeat apply without_app; try assumption. apply has_false. reflexivity. }
  assert (WX : without "/" x).
  { destruct SX as [|k e A B]; [apply without_nil|]. destruct WN as [_ WN]. apply without_app_inv in WN.
    change (String "." e) with ("." ++ e)%string. apply without_app; [apply has_false; reflexivity|tauto]. }
  assert (W : without "/" (n2 ++ x)) by (apply without_app; assumption).
  apply join_inside; [intros t Q; rewrite Q in W; exact (W "" t eq_refl)|].
  intros l (segs & C & NE & FS & ->) I. apply filter_In in I. destruct I as [I _].
  assert (ONE : (n2 ++ x)%string = "..").
  { destruct segs as [|s1 [|s2 segs]]; [congruence| |].
    - cbn in C. destruct I as [->|[]]. exact C.
    - exfalso. cbn [String.concat] in C. rewrite C in W. exact (W s1 _ eq_refl). }
  (* the name is not two dots *)
  apply N3. clear - XE ST HS SX ONE.
  assert (DD : forall c a b, (a ++ String c b)%string = ".." -> c = "."%char).
  { intros c [|y [|z [|w a]]] b Q; cbn in Q; try discriminate; [injection Q as -> _|injection Q as _ -> _]; try reflexivity. }
  destruct HS as [n1 _|n1 _]; [|exfalso; assert (Q := DD "-"%char n1 (substring 0 (hash_digits o) hex ++ x)%string);
    rewrite sapp_assoc in ONE; specialize (Q ONE); discriminate].
  destruct ST as [n _|n ts _ _|n ts _ _].
  2: { exfalso. rewrite sapp_assoc in ONE. specialize (DD "_"%char ts (n ++ x)%string ONE). discriminate. }
  2: { exfalso. rewrite sapp_assoc in ONE. specialize (DD "_"%char n (ts ++ x)%string ONE). discriminate. }
  destruct SX as [|k e A B].
  - rewrite sapp_nil in ONE. subst n. inversion XE as [n e W Q R|? ? W|? W]; subst; [reflexivity| |];
      exfalso; exact (W "" "." eq_refl).
  - exfalso. destruct n as [|y [|z n]]; cbn in ONE.
    + injection ONE as ->. exact (B "" eq_refl).
    + injection ONE as -> ->. remember "." as n0 eqn:N0 in XE. remember (dots k ++ "")%string as e0 eqn:E0 in XE. destruct XE as [n e W|f e W X|f W X].
      * subst e. destruct k; [apply A; reflexivity|]. exact (W "" (dots k ++ "")%string eq_refl).
      * subst f. exact (W "" "" eq_refl).
      * subst f. exact (W "" "" eq_refl).
    + destruct n; discriminate.
Qed.

Definition plain_options := {| extension := Some "txt"; timestamp := None; time_prefix := false; hash_digits := 0;
                               dir_exist_ok := true; file_exist_ok := false |}.
Definition in_dir (l : list string) : path := {| root := "/"; parts := l |}.

(** Claim refuted: the path is in the directory. *)
Theorem C93_escape_refuted :
  target (in_dir ["d"]) "../x" plain_options "" = Ret (in_dir ["d"; ".."; "x.txt"]) /\
  target (in_dir ["d"]) "/etc/x" plain_options "" = Ret (in_dir ["etc"; "x.txt"]) /\
  target (in_dir ["d"]) "..." plain_options "" = Ret (in_dir ["d"; ".."]) /\
  target (in_dir ["d"]) "x" {| extension := None; timestamp := Some "../../2024"; time_prefix := true; hash_digits := 0;
                               dir_exist_ok := true; file_exist_ok := false |} "" = Ret (in_dir ["d"; ".."; ".."; "2024_x"]).
Proof. repeat split; vm_compute; reflexivity. Qed.
(** Claim refuted: the extension that is asked for is the extension of the file. *)
Theorem C93_extension_refuted :
  target (in_dir ["d"]) "v1.2" plain_options "" = Ret (in_dir ["d"; "v1.2"]) /\
  target (in_dir ["d"]) "x." plain_options "" = Ret (in_dir ["d"; "x"]).
Proof. repeat split; vm_compute; reflexivity. Qed.
(** Claim refuted: a backslash is refused. *)
Theorem C93_backslash_refuted :
  target (in_dir ["d"]) "a\b/x" plain_options "" = Ret (in_dir ["d"; "a\b"; "x.txt"]) /\
  target (in_dir ["d"]) "a\b" plain_options "" = Raise ValueError.
Proof. split; vm_compute; reflexivity. Qed.

Definition some_files : files := fun l =>
  if loc_eqb l [] then Some Dir else if loc_eqb l ["d"] then Some Dir else
  if loc_eqb l ["x.txt"; "d"] then Some File else None.
(** Claim refuted: a call that fails changes nothing. *)
Theorem C93_trace_refuted :
  exists fs' , acreate_path some_files [] (in_dir ["d"]) "new/../x" plain_options "" Never = (fs', inr FileExists) /\
    some_files ["new"; "d"] = None /\ fs' ["new"; "d"] = Some Dir.
Proof. eexists. split; [vm_compute; reflexivity|]. split; vm_compute; reflexivity. Qed.

Example C93_ex :
  let o := {| extension := Some ".log"; timestamp := Some "20240102"; time_prefix := true; hash_digits := 4;
              dir_exist_ok := true; file_exist_ok := false |} in
  target (in_dir ["d"]) "sub/./run" o "0123456789abcdef" = Ret (in_dir ["d"; "sub"; "20240102_run-0123.log"]) /\
  target (in_dir ["d"]) "a.tar.gz" o "0123456789abcdef" = Ret (in_dir ["d"; "20240102_a.tar-0123.gz"]) /\
  snd (acreate_path some_files [] (in_dir ["d"]) "x" plain_options "" Never) = inr FileExists /\
  snd (acreate_path some_files [] (in_dir ["d"]) "x.txt/y" plain_options "" Never) = inr FileExists /\
  snd (acreate_path some_files [] (in_dir ["d"]) "x.txt/y/z" plain_options "" Never) = inr NotADirectory /\
  snd (acreate_path some_files [] (in_dir ["d"]) "p/q/y" plain_options "" Never) = inl (in_dir ["d"; "p"; "q"; "y.txt"]) /\
  fst (acreate_path some_files [] (in_dir ["d"]) "p/q/y" plain_options "" BeforeExists) ["q"; "p"; "d"] = Some Dir /\
  snd (acreate_path some_files [] (in_dir ["d"]) "p/q/y" plain_options "" BeforeExists) = inr TimedOut.
Proof. repeat split; vm_compute; reflexivity. Qed.
Example C93_ex_sensible : sensible some_files.
Proof.
  split; [reflexivity|]. intros n l. unfold some_files, loc_eqb.
  destruct (list_eq_dec string_dec (n :: l) []); [discriminate|].
  destruct (list_eq_dec string_dec (n :: l) ["d"]) as [E|_]; [injection E as -> ->; reflexivity|].
  destruct (list_eq_dec string_dec (n :: l) ["x.txt"; "d"]) as [E|_]; [injection E as -> ->; reflexivity|congruence].
Qed.

Print Assumptions C93_path. Print Assumptions C93_join. Print Assumptions C93_files. Print Assumptions C93_done.
Print Assumptions C93_succeeds. Print Assumptions C93_not_reserved. Print Assumptions C93_timeout.
Print Assumptions C93_inside. Print Assumptions C93_escape_refuted. Print Assumptions C93_extension_refuted.
Print Assumptions C93_backslash_refuted. Print Assumptions C93_trace_refuted.
