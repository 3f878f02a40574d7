From Coq Require Import String Permutation.
From Verif Require Import Common LibModel LibSpec.
Local Open Scope N_scope.

(* ---- the specification, one operation at a time ---- *)

Lemma snoc_inv : forall A (l x : list A) o c, l ++ [o] = x ++ c -> c <> [] -> exists c', c = c' ++ [o] /\ l = x ++ c'.
Proof.
  intros A l x o c E N. destruct c as [| z c' _] using rev_ind; [congruence |].
  rewrite app_assoc in E. apply app_inj_tail in E. destruct E as [E ->]. eauto.
Qed.

Lemma stored_snoc : forall ops o k p, stored (ops ++ [o]) k p ->
  (stored ops k p /\ ~ forgets k o) \/ o = Add k p.
Proof.
  intros ops o k p (a & b & c & E & Ha & Hb & Hc).
  destruct c as [| z c' _] using rev_ind.
  - rewrite app_assoc in E. apply app_inj_tail in E. right. apply E.
  - left. rewrite app_comm_cons, !app_assoc in E. apply app_inj_tail in E. destruct E as [E ->].
    split; [| apply Hc, in_app_iff; right; now left].
    exists a, b, c'. rewrite <- !app_assoc in E. split; [exact E |]. split; [exact Ha |]. split; [exact Hb |].
    intros o I. apply Hc, in_app_iff. auto.
Qed.

Lemma stored_keep : forall ops o k p, stored ops k p -> ~ forgets k o -> stored (ops ++ [o]) k p.
Proof.
  intros ops o k p (a & b & c & E & Ha & Hb & Hc) N. exists a, b, (c ++ [o]).
  split; [now rewrite E, <- !app_assoc, <- app_comm_cons |]. split; [exact Ha |]. split; [exact Hb |].
  intros x I. apply in_app_iff in I. destruct I as [I | [<- | []]]; auto.
Qed.

Lemma forgets_dec : forall k o, {forgets k o} + {~ forgets k o}.
Proof.
  intros k [n p | n |]; unfold forgets.
  - right. intros [H | H]; discriminate.
  - destruct (string_dec n k) as [-> | N]; [left; auto | right; intros [H | H]; congruence].
  - left. auto.
Qed.

(* the part of the history since the name was last forgotten *)
Lemma last_forget : forall k ops, exists a b, ops = a ++ b /\
  (a = [] \/ exists a' o, a = a' ++ [o] /\ forgets k o) /\ (forall o, In o b -> ~ forgets k o).
Proof.
  intros k ops. induction ops as [| o ops IH] using rev_ind.
  - exists [], []. repeat split; auto.
  - destruct (forgets_dec k o) as [F | F].
    + exists (ops ++ [o]), []. rewrite app_nil_r. split; [reflexivity |]. split; [right; eauto | intros ? []].
    + destruct IH as (a & b & E & Ha & Hb). exists a, (b ++ [o]). rewrite E, app_assoc.
      split; [reflexivity |]. split; [exact Ha |]. intros x I. apply in_app_iff in I.
      destruct I as [I | [<- | []]]; auto.
Qed.

Lemma first_add : forall k (b : list lib_op), (forall q, ~ In (Add k q) b) \/
  exists b1 q b2, b = b1 ++ Add k q :: b2 /\ forall q, ~ In (Add k q) b1.
Proof.
  intros k. induction b as [| o b IH]; [left; intros q [] |].
  assert (D : (exists q, o = Add k q) \/ (forall q, o <> Add k q)).
  { destruct o as [n p | n |]; try (right; intros q H; discriminate).
    destruct (string_dec n k) as [-> | N]; [left; eauto | right; congruence]. }
  destruct D as [[q ->] | D].
  - right. exists [], q, b. split; [reflexivity |]. intros q' [].
  - destruct IH as [IH | (b1 & q & b2 & E & IH)].
    + left. intros q [H | H]; [now apply D in H | now apply IH in H].
    + right. exists (o :: b1), q, b2. rewrite E. split; [reflexivity |].
      intros q' [H | H]; [now apply D in H | now apply IH in H].
Qed.

Lemma stored_new : forall ops k p, (forall q, ~ stored ops k q) -> stored (ops ++ [Add k p]) k p.
Proof.
  intros ops k p N. destruct (last_forget k ops) as (a & b & E & Ha & Hb).
  destruct (first_add k b) as [F | (b1 & q & b2 & Eb & F)].
  - exists a, b, []. split; [now rewrite E, <- app_assoc |]. split; [exact Ha |]. split; [exact F |]. intros ? [].
  - exfalso. apply (N q). exists a, b1, b2. split; [now rewrite E, Eb |]. split; [exact Ha |]. split; [exact F |].
    intros o I. apply Hb. rewrite Eb. apply in_app_iff. right. now right.
Qed.

Lemma stored_blocked : forall ops k p q, stored ops k q -> stored (ops ++ [Add k p]) k p -> stored ops k p \/ p = q.
Proof.
  intros ops k p q (a1 & b1 & c1 & E1 & Ha1 & Hb1 & Hc1) (a & b & c & E & Ha & Hb & Hc).
  destruct c as [| z c' _] using rev_ind.
  - rewrite app_assoc in E. apply app_inj_tail in E. destruct E as [E _].
    (* the interval without additions reaches the end: it contains q's addition or a forget after it *)
    exfalso. rewrite E in E1. clear E.
    assert (X : In (Add k q) b \/ exists o, In o c1 /\ forgets k o).
    { destruct Ha as [-> | (a' & o & -> & Fo)].
      - left. cbn [app] in E1. rewrite E1. apply in_app_iff. right. apply in_app_iff. right. now left.
      - (* compare positions of o and of Add k q *)
        assert (Y : forall (l : list lib_op) x, a' ++ o :: b = l ++ Add k q :: x -> In (Add k q) b \/ In o x).
        { clear - Fo. induction a' as [| z a' IH]; intros l x E; destruct l as [| y l]; cbn [app] in E.
          - injection E as -> ->. destruct Fo; discriminate.
          - injection E as <- ->. left. apply in_app_iff. right. now left.
          - injection E as -> <-. right. apply in_app_iff. right. now left.
          - injection E as <- E. eauto. }
        rewrite <- app_assoc in E1. cbn [app] in E1. rewrite app_assoc in E1. apply Y in E1.
        destruct E1; eauto. }
    destruct X as [X | (o & I & F)]; [now apply Hb in X | now apply Hc1 in I].
  - left. rewrite app_comm_cons, !app_assoc in E. apply app_inj_tail in E. destruct E as [E _].
    exists a, b, c'. rewrite <- !app_assoc in E. split; [exact E |]. split; [exact Ha |]. split; [exact Hb |].
    intros o I. apply Hc, in_app_iff. auto.
Qed.

(* ---- maps ---- *)

Definition keys_ok (m : smap) : Prop := NoDup (map fst m).

Lemma lookup_In : forall m k p, lookup m k = Some p -> In (k, p) m.
Proof.
  induction m as [| [k' v] m IH]; intros k p; cbn [lookup]; [discriminate |].
  destruct (String.eqb_spec k' k); [intros [= ->]; subst; now left | intros; right; auto].
Qed.

Lemma lookup_notin : forall m k, ~ In k (map fst m) -> lookup m k = None.
Proof.
  induction m as [| [k' v] m IH]; intros k N; cbn [lookup]; [reflexivity |]. cbn [map fst In] in N.
  destruct (String.eqb_spec k' k); [tauto | apply IH; tauto].
Qed.

Lemma In_lookup : forall m k p, keys_ok m -> In (k, p) m -> lookup m k = Some p.
Proof.
  unfold keys_ok. induction m as [| [k' v] m IH]; intros k p ND I; cbn [lookup]; [destruct I |].
  cbn [map fst] in ND. inversion_clear ND as [| ? ? N1 N2]. destruct I as [[= -> ->] | I].
  - now rewrite String.eqb_refl.
  - destruct (String.eqb_spec k' k); [| auto]. subst. destruct N1. now apply (in_map fst) in I.
Qed.

Lemma lookup_remove : forall m k k', lookup (remove_key m k) k' = if String.eqb k k' then None else lookup m k'.
Proof.
  induction m as [| [k0 v] m IH]; intros k k'; cbn [remove_key filter fst lookup]; [now destruct (String.eqb k k') |].
  fold (remove_key m k). destruct (String.eqb_spec k0 k); cbn [negb].
  - rewrite IH. subst. destruct (String.eqb_spec k k'); reflexivity.
  - cbn [lookup]. rewrite IH. destruct (String.eqb_spec k0 k'), (String.eqb_spec k k'); congruence.
Qed.

Lemma remove_keys : forall m k, keys_ok m -> keys_ok (remove_key m k).
Proof.
  unfold keys_ok. induction m as [| [k0 v] m IH]; intros k ND; cbn [remove_key filter fst]; [exact ND |].
  fold (remove_key m k). cbn [map fst] in ND. inversion_clear ND as [| ? ? N1 N2].
  destruct (negb (String.eqb k0 k)); cbn [map fst]; auto. constructor; auto.
  intros I. apply N1. apply in_map_iff in I. destruct I as (x & <- & I). apply filter_In in I. now apply in_map.
Qed.

Lemma insert_keys : forall m k v, keys_ok m -> keys_ok (insert m k v).
Proof.
  intros m k v H. unfold insert. destruct (lookup m k) eqn:E; [exact H |]. unfold keys_ok. cbn [map fst].
  constructor; auto. intros I. apply in_map_iff in I. destruct I as ([k' p] & <- & I). cbn [fst] in E.
  apply In_lookup in I; congruence.
Qed.

Lemma lookup_insert : forall m k v k', lookup (insert m k v) k' =
  match lookup m k' with Some p => Some p | None => if String.eqb k k' then Some v else None end.
Proof.
  intros m k v k'. unfold insert. destruct (lookup m k) eqn:E; cbn [lookup]; destruct (String.eqb_spec k k'); subst;
    rewrite ?E; auto; now destruct (lookup m k').
Qed.

(* the map a history leaves *)
Definition map_step (m : smap) (o : lib_op) : smap :=
  match o with
  | Add k p => insert m k p
  | Erase k => remove_key m k
  | Clear => []
  end.

Definition agrees (ops : list lib_op) (m : smap) (k : string) : Prop :=
  forall p, lookup m k = Some p <-> stored ops k p.

Lemma agrees_nil : forall k, agrees [] [] k.
Proof.
  intros k p. cbn [lookup]. split; [discriminate |].
  intros (a & b & c & E & _). destruct a; [destruct b |]; discriminate.
Qed.

Lemma map_step_keys : forall m o, keys_ok m -> keys_ok (map_step m o).
Proof. intros m o K. destruct o; cbn [map_step]; [now apply insert_keys | now apply remove_keys | constructor]. Qed.

Lemma agrees_step : forall ops m m' o k, agrees ops m k -> lookup m' k = lookup (map_step m o) k ->
  agrees (ops ++ [o]) m' k.
Proof.
  intros ops m m' o k M E p. unfold agrees in M. rewrite E. clear E m'. destruct o as [n v | n |]; cbn [map_step].
  - rewrite lookup_insert. assert (NF : ~ forgets k (Add n v)) by (intros [H | H]; discriminate).
    destruct (lookup m k) as [q |] eqn:L.
    + pose proof (proj1 (M q) eq_refl) as Sq. split.
      * intros [= ->]. now apply stored_keep.
      * intros S2. destruct (stored_snoc _ _ _ _ S2) as [[S3 _] | E].
        -- apply M in S3. congruence.
        -- injection E as -> ->. destruct (stored_blocked ops k p q Sq S2) as [S3 | ->]; [apply M in S3; congruence | reflexivity].
    + destruct (String.eqb_spec n k) as [-> | Nk].
      * split.
        -- intros [= ->]. apply stored_new. intros q S2. apply M in S2. congruence.
        -- intros S2. apply stored_snoc in S2. destruct S2 as [[S2 _] | E]; [apply M in S2; congruence |].
           now injection E as ->.
      * split; [discriminate |]. intros S2. apply stored_snoc in S2.
        destruct S2 as [[S2 _] | E]; [apply M in S2; congruence | congruence].
  - rewrite lookup_remove. destruct (String.eqb_spec n k) as [-> | Nk].
    + split; [discriminate |]. intros S2. apply stored_snoc in S2.
      destruct S2 as [[_ S2] | E]; [destruct S2; now left | discriminate].
    + rewrite M. split.
      * intros S2. apply stored_keep; auto. intros [H | H]; congruence.
      * intros S2. apply stored_snoc in S2. destruct S2 as [[S2 _] | E]; [exact S2 | discriminate].
  - cbn [lookup]. split; [discriminate |]. intros S2. apply stored_snoc in S2.
    destruct S2 as [[_ S2] | E]; [destruct S2; now right | discriminate].
Qed.

(* ---- freeing ---- *)

Lemma mem_N : forall n l, existsb (N.eqb n) l = true <-> In n l.
Proof.
  intros n l. rewrite existsb_exists. split.
  - intros (x & I & E). apply N.eqb_eq in E. now subst.
  - intros I. exists n. split; auto. apply N.eqb_refl.
Qed.

Lemma delete_ok : forall p f, ~ In p f -> delete p f = Ok (p :: f).
Proof. intros p f H. unfold delete. destruct (existsb (N.eqb p) f) eqn:E; [apply mem_N in E; tauto | reflexivity]. Qed.

Lemma deletes_ok : forall l f, NoDup (l ++ f) -> deletes l f = Ok (rev l ++ f).
Proof.
  induction l as [| p l IH]; intros f ND; cbn [deletes rev app]; [reflexivity |].
  cbn [app] in ND. inversion_clear ND as [| ? ? N1 N2]. rewrite delete_ok by (intros I; apply N1, in_app_iff; auto).
  cbn [bind]. rewrite IH; [now rewrite <- app_assoc |].
  pose proof (Add_app p l f) as A. now apply (NoDup_Add A).
Qed.

Lemma insert_vals : forall m k v, map snd (insert m k v) = map snd m \/ map snd (insert m k v) = v :: map snd m.
Proof. intros m k v. unfold insert. destruct (lookup m k); auto. Qed.

Lemma remove_vals : forall m k p, lookup m k = Some p -> keys_ok m ->
  exists a b, map snd m = a ++ p :: b /\ map snd (remove_key m k) = a ++ b.
Proof.
  unfold keys_ok. induction m as [| [k0 v] m IH]; intros k p L K; cbn [lookup] in L; [discriminate |].
  cbn [map fst] in K. inversion_clear K as [| ? ? K1 K2]. cbn [remove_key filter fst]. fold (remove_key m k).
  destruct (String.eqb_spec k0 k) as [-> | Nk]; cbn [negb].
  - injection L as ->. exists [], (map snd m). split; [reflexivity |]. cbn [app]. f_equal.
    unfold remove_key. clear - K1. induction m as [| [k1 v1] m IH]; cbn [filter fst]; [reflexivity |].
    cbn [map fst In] in K1. destruct (String.eqb_spec k1 k); [subst; tauto |]. cbn [negb]. f_equal. apply IH. tauto.
  - destruct (IH k p L K2) as (a & b & E1 & E2). exists (v :: a), b. cbn [map snd]. rewrite E1, E2. auto.
Qed.

(* ownership: H held, F freed, A all the objects ever given *)
Definition owned (h f a : list N) : Prop := NoDup (h ++ f) /\ incl (h ++ f) a.

Lemma owned_remove : forall x p y f a, owned (x ++ p :: y) f a -> owned (x ++ y) (p :: f) a /\ ~ In p f.
Proof.
  intros x p y f a [N I]. rewrite <- app_assoc in N. cbn [app] in N.
  pose proof (NoDup_remove_1 _ _ _ N) as N1. pose proof (NoDup_remove_2 _ _ _ N) as N2.
  split; [split |].
  - rewrite <- app_assoc. rewrite app_assoc. pose proof (Add_app p (x ++ y) f) as A. apply (NoDup_Add A).
    split; rewrite <- app_assoc; auto.
  - intros z Hz. apply I. rewrite !in_app_iff in *. cbn [In] in *. tauto.
  - intros H. apply N2. rewrite !in_app_iff. auto.
Qed.

Lemma owned_add : forall h f a p, owned h f a -> ~ In p a -> owned (p :: h) f (p :: a).
Proof.
  intros h f a p [N I] H. split.
  - cbn [app]. constructor; auto.
  - cbn [app]. intros z [-> | Hz]; [now left | right; auto].
Qed.

Lemma owned_incl : forall h f a b, owned h f a -> incl a b -> owned h f b.
Proof. intros h f a b [N I] H. split; auto. intros z Hz. auto. Qed.

Lemma owned_perm : forall h h' f f' a, owned h f a -> Permutation (h ++ f) (h' ++ f') -> owned h' f' a.
Proof.
  intros h h' f f' a [N I] P. split; [eapply Permutation_NoDup; eauto |].
  intros z Hz. apply I. eapply Permutation_in; [symmetry; eauto | auto].
Qed.

(* What was freed: everything held at some moment and no longer held. *)
Section Freed.
Variables (Op St : Type) (run : list Op -> St -> Prop) (H F : St -> list N).
Hypothesis run_nil : forall s, run [] s -> F s = [].
Hypothesis run_fun : forall ops s1 s2, run ops s1 -> run ops s2 -> s1 = s2.
Hypothesis run_step : forall ops o s', run (ops ++ [o]) s' -> exists s, run ops s /\
  incl (F s) (F s') /\ incl (H s) (H s' ++ F s') /\ incl (F s') (F s ++ H s) /\
  (forall x, In x (H s') -> ~ In x (F s')).

Lemma freed_iff : forall ops s p, run ops s ->
  (In p (F s) <-> (exists pre post s0, ops = pre ++ post /\ run pre s0 /\ In p (H s0)) /\ ~ In p (H s)).
Proof using run_nil run_fun run_step.
  induction ops as [| o ops IH] using rev_ind; intros s p R.
  - rewrite (run_nil s R). split; [intros [] |]. intros ((pre & post & s0 & E & R0 & I) & N).
    destruct pre; [| discriminate]. rewrite (run_fun _ _ _ R R0) in N. tauto.
  - destruct (run_step _ _ _ R) as (s1 & R1 & A1 & A2 & A3 & A4). specialize (IH s1 p R1). split.
    + intros I. split; [| intros I2; now apply (A4 p)]. specialize (A3 p I). apply in_app_iff in A3.
      destruct A3 as [A3 | A3].
      * apply IH in A3. destruct A3 as ((pre & post & s0 & E & R0 & I0) & _).
        exists pre, (post ++ [o]), s0. rewrite E, app_assoc. auto.
      * exists ops, [o], s1. auto.
    + intros ((pre & post & s0 & E & R0 & I0) & N).
      destruct post as [| z post _] using rev_ind.
      * rewrite app_nil_r in E. subst pre. rewrite (run_fun _ _ _ R R0) in N. tauto.
      * rewrite app_assoc in E. apply app_inj_tail in E. destruct E as [E ->].
        destruct (in_dec N.eq_dec p (H s1)) as [I1 | I1].
        -- specialize (A2 p I1). apply in_app_iff in A2. tauto.
        -- apply A1, IH. split; [| exact I1]. exists pre, post, s0. auto.
Qed.
End Freed.
