(* C34: when the reader ends. *)
From Verif Require Import Common DecimalModel MeshModel ObjModel ObjProofs.
Local Open Scope N_scope.

(* an outcome that is not an endless loop, and satisfies P if it is a value *)
Definition fin {A} (P : A -> Prop) (r : res A) : Prop :=
  match r with Ok a => P a | UB => True | OutOfFuel => False end.

Lemma fin_bind : forall A B (P : A -> Prop) (Q : B -> Prop) r k,
  fin P r -> (forall a, P a -> fin Q (k a)) -> fin Q (bind r k).
Proof. intros A B P Q [a | |] k H K; cbn in *; auto. Qed.

Lemma fin_any : forall A (P : A -> Prop) r, fin P r -> fin (fun _ => True) r.
Proof. intros A P [a | |] H; cbn in *; auto. Qed.

Lemma fin_impl : forall A (P Q : A -> Prop) r, fin P r -> (forall a, r = Ok a -> P a -> Q a) -> fin Q r.
Proof. intros A P Q [a | |] H K; cbn in *; auto. Qed.

Lemma fin_ne : forall A (P : A -> Prop) r, fin P r -> r <> OutOfFuel.
Proof. intros A P r H ->. exact H. Qed.

Notation fin' := (fin (fun _ => True)).

Lemma mget_fin : forall m i, fin' (mget m i).
Proof. intros m i. unfold mget. destruct (nth_error m i) as [[c |] |]; exact I. Qed.

Lemma cstr_fin : forall m, fin' (cstr m).
Proof. induction m as [| [c |] m IH]; cbn [cstr]; try exact I. destruct (c =? 0); [exact I |]. destruct (cstr m); auto. Qed.

Lemma white_fin : forall m, fin' (white_len m).
Proof. induction m as [| [c |] m IH]; cbn [white_len]; try exact I. destruct (is_white c); [| exact I]. destruct (white_len m); auto. Qed.

Lemma digits_fin : forall m a n, fin' (digits_of m a n).
Proof. induction m as [| [c |] m IH]; intros a n; cbn [digits_of]; try exact I. destruct (is_digit c); [apply IH | exact I]. Qed.

Lemma strtol_fin : forall m i, fin' (strtol m i).
Proof.
  intros m i. unfold strtol. eapply fin_bind; [apply white_fin |]. intros w _.
  eapply fin_bind; [apply mget_fin |]. intros c _. cbv zeta.
  eapply fin_bind; [apply digits_fin |]. intros [v len] _. destruct (len =? 0)%nat; exact I.
Qed.

Lemma face_indices_fin : forall m, fin' (face_indices m).
Proof.
  intros m. unfold face_indices. eapply fin_bind; [apply strtol_fin |]. intros [v i] _.
  eapply fin_bind; [apply mget_fin |]. intros c _. destruct (c =? 0); [exact I |].
  eapply fin_bind; [apply mget_fin |]. intros d _.
  eapply fin_bind with (P := fun _ => True); [destruct (d =? ch_slash); [exact I | apply strtol_fin] |]. intros [t j] _.
  eapply fin_bind; [apply strtol_fin |]. intros [n k] _. exact I.
Qed.

Lemma move_fin : forall B (old : list B) count i out, fin' (move_materials old i count out).
Proof.
  induction count as [| [k |] count IH]; intros i out; cbn [move_materials]; [exact I | | apply IH].
  destruct (nth_error old i); [| exact I]. destruct (N.to_nat k <? length out)%nat; [apply IH | exact I].
Qed.

Lemma add_triangle_fin : forall T (m : mesh T) t, fin' (add_triangle m t).
Proof.
  intros T m t. unfold add_triangle. destruct (ms_count m =? max_tris); [exact I |].
  eapply fin_bind with (P := fun _ => True).
  - destruct (ms_count m =? ms_alloc m); [| exact I]. cbv zeta. match goal with |- fin _ (if ?b then _ else _) => destruct b end; exact I.
  - intros n _. match goal with |- fin _ (if ?b then _ else _) => destruct b end; exact I.
Qed.

Lemma add_triangles_fin : forall T (l : list T) m, fin' (add_triangles m l).
Proof.
  induction l as [| t l IH]; intros m; cbn [add_triangles]; [exact I |].
  eapply fin_bind; [apply add_triangle_fin |]. intros m' _. apply IH.
Qed.

Definition suf (t t' : list N) : Prop := exists b, t = b ++ t'.

Lemma suf_refl : forall t, suf t t.
Proof. intros t. now exists []. Qed.

Lemma suf_trans : forall a b c, suf a b -> suf b c -> suf a c.
Proof. intros a b c [x ->] [y ->]. exists (x ++ y). now rewrite app_assoc. Qed.

Lemma suf_len : forall a b, suf a b -> (length b <= length a)%nat.
Proof. intros a b [x ->]. rewrite app_length. lia. Qed.

(* empty, or ends with a newline *)
Definition nlt (t : list N) : Prop := t = [] \/ exists t0, t = t0 ++ [10].

Lemma nlt_suf : forall t t', nlt t -> suf t t' -> nlt t'.
Proof.
  intros t t' [-> | [t0 ->]] [b E].
  - left. symmetry in E. apply app_eq_nil in E. tauto.
  - destruct t' as [| x t' _] using rev_ind; [left; reflexivity |]. right. exists t'. rewrite app_assoc in E.
    apply app_inj_tail in E. destruct E as [_ <-]. reflexivity.
Qed.

Lemma nlt_in : forall t, nlt t -> t <> [] -> In 10 t.
Proof. intros t [-> | [t0 ->]] H; [congruence |]. apply in_app_iff. right. now left. Qed.

Lemma t_blank_fin : forall t, In 10 t -> fin (fun t' => suf t t' /\ In 10 t') (t_blank t).
Proof.
  induction t as [| c t IH]; intros H; [destruct H |]. cbn [t_blank].
  destruct ((c =? ch_space) || (c =? ch_tab)) eqn:K.
  - assert (H' : In 10 t) by (destruct H as [-> | H]; [discriminate | exact H]). eapply fin_impl; [apply IH; exact H' |].
    intros t' _ [[b ->] I]. split; [now exists (c :: b) | exact I].
  - split; [apply suf_refl | exact H].
Qed.

Lemma t_chars_fin : forall t acc, In 10 t -> fin (fun x => suf t (fst x) /\ In 10 (fst x)) (t_chars t acc).
Proof.
  induction t as [| c t IH]; intros acc H; [destruct H |]. cbn [t_chars].
  destruct ((c =? ch_space) || (c =? ch_nl) || (c =? ch_cr)) eqn:K.
  - split; [apply suf_refl | exact H].
  - assert (H' : In 10 t) by (destruct H as [-> | H]; [discriminate | exact H]). eapply fin_impl; [apply IH; exact H' |].
    intros [t' a] _ [[b ->] I]. split; [now exists (c :: b) | exact I].
Qed.

Lemma t_token_fin : forall t m, nlt t -> t <> [] -> fin (fun x => suf t (fst x)) (t_token t m).
Proof.
  intros t m H N. unfold t_token. eapply fin_bind; [apply t_blank_fin, nlt_in; assumption |]. intros t1 [S1 I1].
  eapply fin_bind; [apply t_chars_fin; exact I1 |]. intros [t2 acc] [S2 I2]. cbn. eapply suf_trans; eassumption.
Qed.

Lemma t_token_fin_ne : forall t m, nlt t -> t <> [] -> fin (fun x => suf t (fst x) /\ fst x <> []) (t_token t m).
Proof.
  intros t m H N. eapply fin_impl; [apply t_token_fin; assumption |]. intros [t' m'] E S. split; [exact S |].
  apply t_token_suffix in E. destruct E as (_ & _ & E & _). exact E.
Qed.

Lemma t_line_fin : forall t, In 10 t -> fin (fun t' => exists b, t = b ++ 10 :: t') (t_line t).
Proof.
  induction t as [| c t IH]; intros H; [destruct H |]. cbn [t_line]. destruct (N.eqb_spec c ch_nl) as [E | E].
  - exists []. now rewrite E.
  - assert (H' : In 10 t) by (destruct H as [-> | H]; [now contradiction E | exact H]). eapply fin_impl; [apply IH; exact H' |].
    intros t' _ [b ->]. now exists (c :: b).
Qed.

Section Term.
  Context {F B : Type} (strtof : list N -> F) (f0 f1 : F)
    (face_normal : F * F * F -> F * F * F -> F * F * F -> F * F * F)
    (mtl_get : list N -> option B) (mtl_default : B).

  Lemma finalize_fin : forall l ret, fin (fun o => exists r, o = Returned r /\ r_ret r = ret) (@finalize_mesh F B l ret).
  Proof.
    intros l ret. unfold finalize_mesh. destruct (is_nil (l_assoc l)).
    - cbn. eexists. split; [reflexivity |]. reflexivity.
    - unfold compact. destruct (count_used (l_assoc l)) as [c u]. pose proof (move_fin B (l_mats l) c 0 (repeat None (N.to_nat u))) as M.
      destruct (move_materials (l_mats l) 0 c (repeat None (N.to_nat u))); cbn in *; auto. eexists. split; reflexivity.
  Qed.

  Lemma read_vertex_fin : forall vs ts ns m, fin' (@read_vertex F f0 vs ts ns m).
  Proof.
    intros vs ts ns m. unfold read_vertex. eapply fin_bind; [apply face_indices_fin |]. intros [[vi ti] ni] _.
    destruct (find_index vs vi), (find_index ts ti), (find_index ns ni); exact I.
  Qed.

  Lemma read_face_fin : forall fuel vs ts ns s m acc a b, nlt s -> (length s < fuel)%nat ->
    fin (fun x => suf s (fst (fst x)) /\ (s <> [] -> fst (fst x) <> [])) (@read_face F f0 _ plain fuel vs ts ns s m acc a b).
  Proof.
    induction fuel as [| fuel IH]; intros vs ts ns s m acc a b N L; [lia |]. cbn [read_face].
    change (in_peek plain s) with (t_peek s). change (in_token plain s m) with (t_token s m).
    destruct (N.eqb_spec (t_peek s) ch_space) as [P | P]; [| cbn; split; [apply suf_refl | auto]].
    destruct s as [| c s]; [discriminate |]. cbn [t_peek] in P. subst c.
    eapply fin_bind.
    { eapply fin_impl; [apply t_token_fin_ne; [exact N | discriminate] |]. intros x E K. exact (conj E K). }
    intros [s1 m1] [E [S1 NE1]]. cbn [fst] in *.
    assert (L1 : (length s1 <= length s)%nat).
    { unfold t_token in E. cbn [t_blank] in E. change ((ch_space =? ch_space) || (ch_space =? ch_tab)) with true in E. cbn match in E.
      change (t_token s m = Ok (s1, m1)) in E. apply t_token_suffix in E. destruct E as (b' & -> & _). rewrite app_length. lia. }
    eapply fin_bind; [apply read_vertex_fin |]. intros [v t n | |] _; try (cbn; auto).
    eapply fin_impl; [apply IH; [eapply nlt_suf; eassumption | cbn [length] in L; lia] |].
    intros x _ [S2 NE2]. split; [eapply suf_trans; eassumption | auto].
  Qed.

  Lemma token_float_fin : forall s m, nlt s -> s <> [] ->
    fin (fun x => suf s (fst (fst x)) /\ fst (fst x) <> []) (token_float strtof plain s m).
  Proof.
    intros s m N NE. unfold token_float. eapply fin_bind; [apply t_token_fin_ne; eassumption |]. intros [s1 m1] [S1 NE1].
    eapply fin_bind; [apply cstr_fin |]. intros l _. cbn. auto.
  Qed.

  Lemma token_float3_fin : forall s m, nlt s -> s <> [] ->
    fin (fun x => suf s (fst (fst x)) /\ fst (fst x) <> []) (token_float3 strtof plain s m).
  Proof.
    intros s m N NE. unfold token_float3. eapply fin_bind; [apply token_float_fin; assumption |]. intros [[s1 m1] x] [S1 N1]. cbn [fst] in *.
    eapply fin_bind; [apply token_float_fin; [eapply nlt_suf; eassumption | assumption] |]. intros [[s2 m2] y] [S2 N2]. cbn [fst] in *.
    eapply fin_bind; [apply token_float_fin; [eapply nlt_suf; [| exact S2]; eapply nlt_suf; eassumption | assumption] |].
    intros [[s3 m3] z] [S3 N3]. cbn [fst] in *. cbn. split; [| exact N3]. eapply suf_trans; [exact S1 |]. eapply suf_trans; eassumption.
  Qed.

  Definition act_ok (s : list N) (ret : bool) (a : @action F B (list N)) : Prop :=
    match a with
    | Go p _ _ => suf s (p_src p) /\ p_src p <> []
    | Leave p o => suf s (p_src p) /\ forall r, o = Returned r -> r_ret r = true -> ret = true
    end.

  Lemma leave_fin : forall s p l ret ret', suf s (p_src p) -> (ret' = true -> ret = true) ->
    fin (act_ok s ret) (leave p l ret').
  Proof.
    intros s p l ret ret' H K. unfold leave. eapply fin_bind; [apply finalize_fin |]. intros o (r & -> & <-). cbn.
    split; [exact H |]. intros r' E. injection E as <-. exact K.
  Qed.

  Lemma switch_fin : forall fuel p m l, nlt (p_src p) -> p_src p <> [] -> (length (p_src p) < fuel)%nat ->
    fin (act_ok (p_src p) (l_ret l)) (switch strtof f0 f1 face_normal mtl_get plain fuel p m l).
  Proof.
    intros fuel p m l N NE L. unfold switch. eapply fin_bind; [apply mget_fin |]. intros c _.
    destruct (c =? 118); [| destruct (c =? 117); [| destruct (c =? 111); [| destruct (c =? 103); [| destruct (c =? 102)]]]].
    - unfold case_v. eapply fin_bind; [apply mget_fin |]. intros d _. destruct (d =? 116).
      + eapply fin_bind; [apply token_float_fin; assumption |]. intros [[s1 m1] x] [S1 N1]. cbn [fst] in *.
        eapply fin_bind; [apply token_float_fin; [eapply nlt_suf; eassumption | assumption] |]. intros [[s2 m2] y] [S2 N2]. cbn [fst] in *.
        cbn. split; [eapply suf_trans; eassumption | exact N2].
      + eapply fin_bind; [apply token_float3_fin; assumption |]. intros [[s1 m1] x] [S1 N1]. destruct (d =? 110); cbn; auto.
    - unfold case_u. eapply fin_bind; [apply cstr_fin |]. intros w _. destruct (str_eqb w word_usemtl); [| cbn; split; [apply suf_refl | exact NE]].
      eapply fin_bind; [apply t_token_fin_ne; assumption |]. intros [s1 m1] [S1 N1]. eapply fin_bind; [apply cstr_fin |]. intros n _. cbn. auto.
    - unfold case_o. destruct (negb (is_nil (l_name l))); [apply leave_fin; [apply suf_refl | auto] |].
      eapply fin_bind; [apply t_token_fin_ne; assumption |]. intros [s1 m1] [S1 N1]. eapply fin_bind; [apply cstr_fin |]. intros n _. cbn. auto.
    - unfold case_g. destruct (negb (is_nil (l_name l)) && p_groups p); [apply leave_fin; [apply suf_refl | auto] |].
      destruct (is_nil (l_name l) || p_groups p); [| cbn; split; [apply suf_refl | exact NE]].
      eapply fin_bind; [apply t_token_fin_ne; assumption |]. intros [s1 m1] [S1 N1]. eapply fin_bind; [apply cstr_fin |]. intros n _. cbn. auto.
    - unfold case_f. eapply fin_bind; [apply read_face_fin; assumption |]. intros [[s1 m1] fl] [S1 N1]. cbn [fst] in *.
      destruct fl as [vs a b | |].
      + eapply fin_bind with (P := fun _ => True).
        { unfold with_normals. destruct b; [| exact I]. destruct vs as [| ? [| ? [| ? ?]]]; exact I. }
        intros vs' _. destruct (triangulate f0 f1 a vs') as [ts |]; [| apply leave_fin; [exact S1 | discriminate]].
        eapply fin_bind; [apply add_triangles_fin |]. intros mm _. cbn. auto.
      + apply leave_fin; [exact S1 | discriminate].
      + cbn. split; [exact S1 | discriminate].
    - cbn. split; [apply suf_refl | exact NE].
  Qed.

  Lemma lines_fin : forall fuel p m l, nlt (p_src p) -> clean (p_src p) -> (length (p_src p) < fuel)%nat ->
    fin (fun x => suf (p_src p) (p_src (fst x)) /\
                  forall r, snd x = Returned r -> r_ret r = true ->
                            l_ret l = true \/ (length (p_src (fst x)) < length (p_src p))%nat)
      (lines strtof f0 f1 face_normal mtl_get plain fuel p m l).
  Proof.
    induction fuel as [| fuel IH]; intros p m l N C L; [lia |]. cbn [lines].
    change (in_peek plain (p_src p)) with (t_peek (p_src p)).
    destruct (N.eqb_spec (t_peek (p_src p)) guard) as [P | P].
    { eapply fin_bind; [apply finalize_fin |]. intros o (r & -> & E). cbn. split; [apply suf_refl |].
      intros r' E' K. injection E' as <-. left. congruence. }
    assert (NE : p_src p <> []) by (intros E; rewrite E in P; now contradiction P).
    eapply fin_bind with (P := fun x => suf (p_src p) (p_src (fst x)) /\ p_src (fst x) <> []).
    { unfold keyword. destruct (negb (p_craft p =? 0)); [cbn; split; [apply suf_refl | exact NE] |].
      eapply fin_bind; [apply t_token_fin_ne; assumption |]. intros [s1 m1] [S1 N1]. cbn. auto. }
    intros [p1 m1] [S1 N1]. cbn [fst] in *. pose proof (nlt_suf _ _ N S1) as Nl1. pose proof (suf_len _ _ S1) as L1.
    eapply fin_bind; [apply switch_fin; [exact Nl1 | exact N1 | lia] |].
    intros [p2 m2 l2 | p2 o] A; cbn [act_ok] in A.
    - destruct A as [S2 N2]. assert (S12 : suf (p_src p) (p_src p2)) by (eapply suf_trans; eassumption).
      pose proof (nlt_suf _ _ N S12) as Nl2. pose proof (suf_len _ _ S12) as L2.
      eapply fin_bind; [apply t_line_fin, nlt_in; assumption |]. intros t3 [b E3].
      assert (S3 : suf (p_src p) t3).
      { eapply suf_trans; [exact S12 |]. rewrite E3. exists (b ++ [10]). now rewrite <- app_assoc. }
      assert (L3 : (length t3 < length (p_src p))%nat) by (rewrite E3, app_length in L2; cbn [length] in L2; lia).
      eapply fin_impl.
      + apply IH; unfold with_src; cbn [p_src]; [exact (nlt_suf _ _ N S3) | | lia].
        destruct S3 as [b3 E']. rewrite E' in C. now apply clean_suffix in C.
      + intros [p4 o] _ [S4 K]. cbn [fst snd with_src p_src] in *. split; [eapply suf_trans; eassumption |].
        intros r _ _. right. pose proof (suf_len _ _ S4). lia.
    - destruct A as [S2 K]. cbn. split; [eapply suf_trans; eassumption |]. intros r E R. left. eauto.
  Qed.

  Lemma load_fin : forall calls fuel p, nlt (p_src p) -> clean (p_src p) -> (length (p_src p) < fuel)%nat ->
    (length (p_src p) < calls)%nat -> fin' (load strtof f0 f1 face_normal mtl_get mtl_default plain calls fuel p).
  Proof.
    induction calls as [| calls IH]; intros fuel p N C L LC; [lia |]. cbn [load]. unfold get_next_mesh.
    eapply fin_bind; [apply lines_fin; assumption |]. intros [p1 o] [S1 K]. cbn [fst snd] in *.
    destruct o as [r |]; [| exact I]. destruct (r_ret r) eqn:R; [| exact I].
    destruct (K r eq_refl R) as [K' | K']; [discriminate |].
    eapply fin_bind with (P := fun _ => True).
    { unfold keep_mesh. match goal with |- fin _ (if ?b then _ else _) => destruct b end; exact I. }
    intros r' _. eapply fin_bind; [apply IH |].
    - eapply nlt_suf; eassumption.
    - destruct S1 as [b E]. rewrite E in C. now apply clean_suffix in C.
    - lia.
    - lia.
    - intros rest _. exact I.
  Qed.

  (* ---- a last line without a newline ---- *)

  Definition unfinished (t : list N) : Prop := clean t /\ exists t0 c, t = t0 ++ [c] /\ c <> 10.

  Lemma unfinished_suf : forall t t', unfinished t -> suf t t' -> t' <> [] -> unfinished t'.
  Proof.
    intros t t' (C & t0 & c & -> & Hc) [b E] N. split; [rewrite E in C; now apply clean_suffix in C |].
    destruct t' as [| x t' _] using rev_ind; [congruence |].
    rewrite app_assoc in E. apply app_inj_tail in E. destruct E as [_ <-]. exists t', c. auto.
  Qed.

  Lemma unfinished_line : forall t t', unfinished t -> t_line t = Ok t' -> unfinished t'.
  Proof.
    intros t t' U E. apply t_line_suffix in E. destruct E as (b & E & _).
    eapply unfinished_suf; [exact U | |].
    - rewrite E. exists (b ++ [10]). now rewrite <- app_assoc.
    - intros ->. destruct U as (_ & t0 & c & -> & Hc). apply app_inj_tail in E. destruct E. congruence.
  Qed.

  (* every step that ends keeps an unfinished text unfinished *)
  Definition keeps {A} (src_of : A -> list N) (r : res A) : Prop := forall a, r = Ok a -> unfinished (src_of a).

  Lemma keeps_bind : forall A A' (f : A -> list N) (g : A' -> list N) r k,
    keeps f r -> (forall a, r = Ok a -> unfinished (f a) -> keeps g (k a)) -> keeps g (bind r k).
  Proof. intros A A' f g [a | |] k H K; cbn; intros x E; try discriminate. eapply K; eauto. Qed.

  Lemma keeps_skip : forall A A' (g : A' -> list N) (r : res A) k, (forall a, keeps g (k a)) -> keeps g (bind r k).
  Proof. intros A A' g [a | |] k K; cbn; intros x E; try discriminate. eapply K; eauto. Qed.

  Lemma t_token_keeps : forall t m, unfinished t -> keeps fst (t_token t m).
  Proof.
    intros t m U [t' m'] E. apply t_token_suffix in E. destruct E as (b & E & N & _). cbn.
    eapply unfinished_suf; [exact U | now exists b | exact N].
  Qed.

  Lemma read_face_keeps : forall fuel vs ts ns s m acc a b, unfinished s ->
    keeps (fun x => fst (fst x)) (@read_face F f0 _ plain fuel vs ts ns s m acc a b).
  Proof.
    induction fuel as [| fuel IH]; intros vs ts ns s m acc a b U; [intros x E; discriminate |]. cbn [read_face].
    change (in_token plain s m) with (t_token s m).
    destruct (in_peek plain s =? ch_space); [| intros x E; injection E as <-; exact U].
    eapply keeps_bind; [apply t_token_keeps; exact U |]. intros [s1 m1] _ U1. apply keeps_skip.
    intros [v t n | |]; try (intros x E; injection E as <-; exact U1). apply IH. exact U1.
  Qed.

  Lemma token_float_keeps : forall s m, unfinished s -> keeps (fun x => fst (fst x)) (token_float strtof plain s m).
  Proof.
    intros s m U. unfold token_float. eapply keeps_bind; [apply t_token_keeps; exact U |]. intros [s1 m1] _ U1.
    apply keeps_skip. intros l x E. injection E as <-. exact U1.
  Qed.

  Lemma token_float3_keeps : forall s m, unfinished s -> keeps (fun x => fst (fst x)) (token_float3 strtof plain s m).
  Proof.
    intros s m U. unfold token_float3. eapply keeps_bind; [apply token_float_keeps; exact U |]. intros [[s1 m1] a1] _ U1.
    eapply keeps_bind; [apply token_float_keeps; exact U1 |]. intros [[s2 m2] a2] _ U2.
    eapply keeps_bind; [apply token_float_keeps; exact U2 |]. intros [[s3 m3] a3] _ U3. intros x E. injection E as <-. exact U3.
  Qed.

  Definition act_src (a : @action F B (list N)) : list N := match a with Go p _ _ => p_src p | Leave p _ => p_src p end.

  Lemma leave_keeps : forall p l ret, unfinished (p_src p) -> keeps act_src (leave p l ret).
  Proof. intros p l ret U. unfold leave. apply keeps_skip. intros o x E. injection E as <-. exact U. Qed.

  Lemma switch_keeps : forall fuel p m l, unfinished (p_src p) ->
    keeps act_src (switch strtof f0 f1 face_normal mtl_get plain fuel p m l).
  Proof.
    intros fuel p m l U. unfold switch. apply keeps_skip. intros c.
    destruct (c =? 118); [| destruct (c =? 117); [| destruct (c =? 111); [| destruct (c =? 103); [| destruct (c =? 102)]]]].
    - unfold case_v. apply keeps_skip. intros d. destruct (d =? 116).
      + eapply keeps_bind; [apply token_float_keeps; exact U |]. intros [[s1 m1] a1] _ U1.
        eapply keeps_bind; [apply token_float_keeps; exact U1 |]. intros [[s2 m2] a2] _ U2. intros x E. injection E as <-. exact U2.
      + eapply keeps_bind; [apply token_float3_keeps; exact U |]. intros [[s1 m1] a1] _ U1.
        destruct (d =? 110); intros x E; injection E as <-; exact U1.
    - unfold case_u. apply keeps_skip. intros w. destruct (str_eqb w word_usemtl); [| intros x E; injection E as <-; exact U].
      eapply keeps_bind; [apply t_token_keeps; exact U |]. intros [s1 m1] _ U1. apply keeps_skip. intros n x E. injection E as <-. exact U1.
    - unfold case_o. destruct (negb (is_nil (l_name l))); [now apply leave_keeps |].
      eapply keeps_bind; [apply t_token_keeps; exact U |]. intros [s1 m1] _ U1. apply keeps_skip. intros n x E. injection E as <-. exact U1.
    - unfold case_g. destruct (negb (is_nil (l_name l)) && p_groups p); [now apply leave_keeps |].
      destruct (is_nil (l_name l) || p_groups p); [| intros x E; injection E as <-; exact U].
      eapply keeps_bind; [apply t_token_keeps; exact U |]. intros [s1 m1] _ U1. apply keeps_skip. intros n x E. injection E as <-. exact U1.
    - unfold case_f. eapply keeps_bind; [apply read_face_keeps; exact U |]. intros [[s1 m1] fl] _ U1. cbn [fst] in U1.
      destruct fl as [vs a b | |].
      + apply keeps_skip. intros vs'. destruct (triangulate f0 f1 a vs') as [ts |]; [| now apply leave_keeps].
        apply keeps_skip. intros mm x E. injection E as <-. exact U1.
      + now apply leave_keeps.
      + intros x E. injection E as <-. exact U1.
    - intros x E. injection E as <-. exact U.
  Qed.

  Lemma lines_keeps : forall fuel p m l, unfinished (p_src p) ->
    keeps (fun x => p_src (fst x)) (lines strtof f0 f1 face_normal mtl_get plain fuel p m l).
  Proof.
    induction fuel as [| fuel IH]; intros p m l U; [intros x E; discriminate |]. cbn [lines].
    change (in_peek plain (p_src p)) with (t_peek (p_src p)).
    destruct (N.eqb_spec (t_peek (p_src p)) guard) as [P | P].
    { exfalso. destruct U as (C & t0 & c & E & _). destruct (p_src p) as [| x t]; [destruct t0; discriminate |].
      inversion_clear C as [| ? ? C1 C2]. cbn in P. congruence. }
    eapply keeps_bind with (f := fun x => p_src (fst x)).
    { unfold keyword. destruct (negb (p_craft p =? 0)); [intros x E; injection E as <-; exact U |].
      eapply keeps_bind; [apply t_token_keeps; exact U |]. intros [s1 m1] _ U1 x E. injection E as <-. exact U1. }
    intros [p1 m1] _ U1. cbn [fst] in U1.
    eapply keeps_bind; [apply switch_keeps; exact U1 |]. intros [p2 m2 l2 | p2 o] _ U2; cbn [act_src] in U2.
    - eapply keeps_bind with (f := fun t => t); [intros t3 E3; eapply unfinished_line; [exact U2 | exact E3] |].
      intros t3 _ U3. apply IH. exact U3.
    - intros x E. injection E as <-. exact U2.
  Qed.

  (* ---- one line without a newline ---- *)

  Lemma t_line_none : forall t, ~ In 10 t -> t_line t = OutOfFuel.
  Proof.
    induction t as [| c t IH]; intros H; [reflexivity |]. cbn [t_line]. destruct (N.eqb_spec c ch_nl) as [E | E].
    - exfalso. apply H. now left.
    - apply IH. intros K. apply H. now right.
  Qed.

  (* a result that is an endless loop, or a value satisfying P *)
  Definition wait {A} (P : A -> Prop) (r : res A) : Prop :=
    match r with Ok a => P a | UB => False | OutOfFuel => True end.

  Lemma wait_bind : forall A A' (P : A -> Prop) (Q : A' -> Prop) r k,
    wait P r -> (forall a, P a -> wait Q (k a)) -> wait Q (bind r k).
  Proof. intros A A' P Q [a | |] k H K; cbn in *; auto. Qed.

  Lemma t_blank_wait : forall t, ~ In 10 t -> wait (fun t' => ~ In 10 t') (t_blank t).
  Proof.
    induction t as [| c t IH]; intros H; [exact I |]. cbn [t_blank]. destruct ((c =? ch_space) || (c =? ch_tab)).
    - apply IH. intros K. apply H. now right.
    - exact H.
  Qed.

  Lemma t_chars_wait : forall t acc, ~ In 10 t -> wait (fun x => ~ In 10 (fst x)) (t_chars t acc).
  Proof.
    induction t as [| c t IH]; intros acc H; [exact I |]. cbn [t_chars].
    destruct ((c =? ch_space) || (c =? ch_nl) || (c =? ch_cr)).
    - exact H.
    - apply IH. intros K. apply H. now right.
  Qed.

  Lemma cstr_store : forall w m, exists l, cstr (store w m) = Ok l.
  Proof.
    intros w m. unfold store. generalize (skipn (S (length w)) m) as tail. intros tail.
    induction w as [| c w IH]; cbn [map app cstr].
    - exists []. reflexivity.
    - destruct (c =? 0); [now exists [] |]. destruct IH as (l & E). rewrite E. cbn. now exists (c :: l).
  Qed.

  Definition stored (m : mem) : Prop := exists w m0, m = store w m0.

  Lemma stored_cstr : forall m, stored m -> exists l, cstr m = Ok l.
  Proof. intros m (w & m0 & ->). apply cstr_store. Qed.

  Lemma t_token_wait : forall t m, ~ In 10 t -> wait (fun x => ~ In 10 (fst x) /\ stored (snd x)) (t_token t m).
  Proof.
    intros t m H. unfold t_token. eapply wait_bind; [apply t_blank_wait; exact H |]. intros t1 H1.
    eapply wait_bind; [apply t_chars_wait; exact H1 |]. intros [t2 acc] H2. cbn. split; [exact H2 |]. eexists _, _. reflexivity.
  Qed.

  Lemma token_float_wait : forall t m, ~ In 10 t ->
    wait (fun x => ~ In 10 (fst (fst x)) /\ stored (snd (fst x))) (token_float strtof plain t m).
  Proof.
    intros t m H. unfold token_float. eapply wait_bind; [apply t_token_wait; exact H |]. intros [t1 m1] [H1 S1].
    destruct (stored_cstr _ S1) as (l & E). cbn [snd] in *. rewrite E. cbn. auto.
  Qed.

  Lemma token_float3_wait : forall t m, ~ In 10 t ->
    wait (fun x => ~ In 10 (fst (fst x)) /\ stored (snd (fst x))) (token_float3 strtof plain t m).
  Proof.
    intros t m H. unfold token_float3. eapply wait_bind; [apply token_float_wait; exact H |]. intros [[t1 m1] x] [H1 _].
    eapply wait_bind; [apply token_float_wait; exact H1 |]. intros [[t2 m2] y] [H2 _].
    eapply wait_bind; [apply token_float_wait; exact H2 |]. intros [[t3 m3] z] [H3 S3]. cbn. auto.
  Qed.

  (* the first character of the token is that of the text *)
  Lemma t_token_head : forall c t m, c <> 32 -> c <> 9 -> c <> 10 -> c <> 13 -> ~ In 10 t ->
    wait (fun x => ~ In 10 (fst x) /\ exists w m0, snd x = store (c :: w) m0) (t_token (c :: t) m).
  Proof.
    intros c t m N1 N2 N3 N4 H. unfold t_token. cbn [t_blank].
    replace ((c =? ch_space) || (c =? ch_tab)) with false by (unfold ch_space, ch_tab; lia). cbn [bind t_chars].
    replace ((c =? ch_space) || (c =? ch_nl) || (c =? ch_cr)) with false by (unfold ch_space, ch_nl, ch_cr; lia).
    cbn [length]. change (0 <? token_size - 1)%nat with true. cbn match.
    assert (G : forall t acc, ~ In 10 t -> wait (fun x => ~ In 10 (fst x) /\ exists l, snd x = l ++ acc) (t_chars t acc)).
    { clear. induction t as [| c t IH]; intros acc H; [exact I |]. cbn [t_chars].
      destruct ((c =? ch_space) || (c =? ch_nl) || (c =? ch_cr)).
      - split; [exact H |]. now exists [].
      - set (acc' := if (length acc <? token_size - 1)%nat then c :: acc else acc).
        assert (H' : ~ In 10 t) by (intros K; apply H; now right). specialize (IH acc' H').
        destruct (t_chars t acc') as [[t' a] | |]; cbn [wait fst snd] in *; auto. destruct IH as [I1 [l E]]. split; [exact I1 |].
        subst acc'. destruct (length acc <? token_size - 1)%nat; [exists (l ++ [c]); rewrite <- app_assoc; exact E | exists l; exact E]. }
    eapply wait_bind; [apply G; exact H |]. intros [t2 acc] [H2 [l E]]. cbn [fst snd] in *. subst acc. cbn. split; [exact H2 |].
    rewrite rev_app_distr. cbn [rev app]. eexists _, _. reflexivity.
  Qed.

  Lemma one_line_waits : forall fuel c t obj groups vs ts ns,
    c <> 32 -> c <> 9 -> c <> 13 -> c <> 102 -> c <> guard -> ~ In 10 (c :: t) ->
    get_next_mesh strtof f0 f1 face_normal mtl_get mtl_default plain fuel (mk_parser (c :: t) 0 groups vs ts ns) obj = OutOfFuel.
  Proof.
    intros fuel c t obj groups vs ts ns N1 N2 N3 N4 N5 H. unfold get_next_mesh.
    destruct fuel as [| fuel]; [reflexivity |]. cbn [lines p_src].
    change (in_peek plain (c :: t)) with c. replace (c =? guard) with false by (symmetry; now apply N.eqb_neq).
    unfold keyword. cbn [p_craft]. change (negb (0 =? 0)) with false. cbn match. cbn [p_src].
    change (in_token plain (c :: t) fresh_token) with (t_token (c :: t) fresh_token).
    assert (H' : ~ In 10 t) by (intros K; apply H; now right).
    assert (N6 : c <> 10) by (intros ->; apply H; now left).
    pose proof (t_token_head c t fresh_token N1 N2 N6 N3 H') as K.
    destruct (t_token (c :: t) fresh_token) as [[t1 m1] | |]; cbn [wait fst snd] in K; [| contradiction | reflexivity]. cbn [bind].
    destruct K as [K1 (w & m0 & ->)].
    set (p1 := with_src _ t1). set (l0 := mk_locals _ _ _ _ _ _ _).
    assert (W : wait (fun a => exists p m l, a = Go p m l /\ ~ In 10 (p_src p))
                  (switch strtof f0 f1 face_normal mtl_get plain (S fuel) p1 (store (c :: w) m0) l0)).
    { assert (NI : ~ In 10 (p_src p1)) by exact K1. clearbody p1. unfold switch.
      change (mget (store (c :: w) m0) 0) with (Ok c). cbn [bind].
      replace (c =? 102) with false by (symmetry; now apply N.eqb_neq).
      destruct (c =? 118); [| destruct (c =? 117); [| destruct (c =? 111); [| destruct (c =? 103)]]].
      - unfold case_v. assert (M1 : exists d, mget (store (c :: w) m0) 1 = Ok d).
        { unfold mget, store. destruct w; cbn; eexists; reflexivity. }
        destruct M1 as [d ->]. cbn [bind]. destruct (d =? 116).
        + eapply wait_bind; [apply token_float_wait; exact NI |]. intros [[s1 m1] x] [A1 _].
          eapply wait_bind; [apply token_float_wait; exact A1 |]. intros [[s2 m2] y] [A2 _]. cbn. eexists _, _, _. split; [reflexivity |]. exact A2.
        + eapply wait_bind; [apply token_float3_wait; exact NI |]. intros [[s1 m1] x] [A1 _].
          destruct (d =? 110); cbn; eexists _, _, _; (split; [reflexivity |]); exact A1.
      - unfold case_u. destruct (cstr_store (c :: w) m0) as [lw ->]. cbn [bind].
        destruct (str_eqb lw word_usemtl); [| cbn; eexists _, _, _; split; [reflexivity |]; exact NI].
        eapply wait_bind; [apply t_token_wait; exact NI |]. intros [s1 m1] [A1 S1].
        destruct (stored_cstr _ S1) as [l E]. cbn [snd] in E. rewrite E. cbn. eexists _, _, _. split; [reflexivity |]. exact A1.
      - unfold case_o. cbn [l_name l0 is_nil negb].
        eapply wait_bind; [apply t_token_wait; exact NI |]. intros [s1 m1] [A1 S1].
        destruct (stored_cstr _ S1) as [l E]. cbn [snd] in E. rewrite E. cbn. eexists _, _, _. split; [reflexivity |]. exact A1.
      - unfold case_g. cbn [l_name l0 is_nil negb andb orb].
        eapply wait_bind; [apply t_token_wait; exact NI |]. intros [s1 m1] [A1 S1].
        destruct (stored_cstr _ S1) as [l E]. cbn [snd] in E. rewrite E. cbn. eexists _, _, _. split; [reflexivity |]. exact A1.
      - cbn. eexists _, _, _. split; [reflexivity |]. exact NI. }
    destruct (switch strtof f0 f1 face_normal mtl_get plain (S fuel) p1 (store (c :: w) m0) l0) as [a | |]; cbn [wait] in W; [| contradiction | reflexivity].
    destruct W as (p2 & m2 & l2 & -> & A2). cbn [bind].
    change (in_line plain (p_src p2)) with (t_line (p_src p2)). rewrite t_line_none by exact A2. reflexivity.
  Qed.
End Term.
