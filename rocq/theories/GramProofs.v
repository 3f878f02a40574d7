(* Proofs about the grammar: each function reads what its part of the documents describes. *)
From Coq Require Import QArith.
From Verif Require Import Common PathModel MaskModel DriverModel BuildModel ScanModel ScanSpec GramModel GramSpec.
Local Open Scope nat_scope.

(* what may come after a value: no attribute and no array *)
Definition follow (r : list token) : Prop :=
  match r with t :: _ => attribute_of t = None /\ t <> OpenSq | [] => True end.

Lemma number_sound t q : number t = Some q -> float_value t q.
Proof. destruct t; try discriminate; intros H; injection H as <-; constructor. Qed.
Lemma number_complete t q : float_value t q -> number t = Some q.
Proof. destruct 1; reflexivity. Qed.
Lemma number_not_open t q : float_value t q -> t <> OpenSq.
Proof. destruct 1; discriminate. Qed.

Lemma give_some {A B} (f : A -> B) x b r : give f x = Some (b, r) -> exists a, x = Some (a, r) /\ f a = b.
Proof. destruct x as [[a r']|]; [|discriminate]. simpl. intros H. injection H as <- <-. eauto. Qed.

Lemma one_number_sound ts q r : one_number ts = Some (q, r) -> exists t, ts = t :: r /\ float_value t q.
Proof.
  destruct ts as [|t ts]; [discriminate|]. simpl. destruct (number t) eqn:E; [|discriminate].
  intros H. injection H as <- <-. eauto using number_sound.
Qed.
Lemma one_number_complete t q r : float_value t q -> one_number (t :: r) = Some (q, r).
Proof. intros H. simpl. rewrite (number_complete _ _ H). reflexivity. Qed.

Lemma vector_sound ts v r : vector ts = Some (v, r) -> exists vs, ts = vs ++ r /\ float3 vs v.
Proof.
  intros H. destruct ts as [|x ts]; [discriminate|]. destruct x; try discriminate.
  destruct ts as [|a ts]; [discriminate|]. destruct ts as [|x ts]; [discriminate|]. destruct x; try discriminate.
  destruct ts as [|b ts]; [discriminate|]. destruct ts as [|x ts]; [discriminate|]. destruct x; try discriminate.
  destruct ts as [|c ts]; [discriminate|]. destruct ts as [|x ts]; [discriminate|]. destruct x; try discriminate.
  cbn [vector] in H. destruct (number a) eqn:A; [|discriminate]. destruct (number b) eqn:B; [|discriminate].
  destruct (number c) eqn:C; [|discriminate]. injection H as <- <-.
  exists [OpenSq; a; Comma; b; Comma; c; CloseSq]. split; [reflexivity|]. constructor; apply number_sound; assumption.
Qed.
Lemma vector_complete vs v r : float3 vs v -> vector (vs ++ r) = Some (v, r).
Proof.
  destruct 1 as [x y z a b c A B C]. cbn [app vector].
  rewrite (number_complete _ _ A), (number_complete _ _ B), (number_complete _ _ C). reflexivity.
Qed.
Lemma vector2_sound ts v r : vector2 ts = Some (v, r) -> exists vs, ts = vs ++ r /\ float2 vs v.
Proof.
  intros H. destruct ts as [|x ts]; [discriminate|]. destruct x; try discriminate.
  destruct ts as [|a ts]; [discriminate|]. destruct ts as [|x ts]; [discriminate|]. destruct x; try discriminate.
  destruct ts as [|b ts]; [discriminate|]. destruct ts as [|x ts]; [discriminate|]. destruct x; try discriminate.
  cbn [vector2] in H. destruct (number a) eqn:A; [|discriminate]. destruct (number b) eqn:B; [|discriminate].
  injection H as <- <-.
  exists [OpenSq; a; Comma; b; CloseSq]. split; [reflexivity|]. constructor; apply number_sound; assumption.
Qed.
Lemma vector2_complete vs v r : float2 vs v -> vector2 (vs ++ r) = Some (v, r).
Proof.
  destruct 1 as [x y a b A B]. cbn [app vector2].
  rewrite (number_complete _ _ A), (number_complete _ _ B). reflexivity.
Qed.
Lemma vector_not2 vs v r : float2 vs v -> vector (vs ++ r) = None.
Proof. destruct 1. reflexivity. Qed.
Lemma vector_number t q r : float_value t q -> vector (t :: r) = None.
Proof. destruct 1; reflexivity. Qed.
Lemma vector2_number t q r : float_value t q -> vector2 (t :: r) = None.
Proof. destruct 1; reflexivity. Qed.
Lemma vector_follow r : follow r -> vector r = None.
Proof. destruct r as [|[] r]; try reflexivity. intros [_ H]. contradiction. Qed.
Lemma uint_sound ts n r : uint ts = Some (n, r) -> ts = UInt n :: r.
Proof. destruct ts as [|[] ts]; try discriminate. simpl. intros H. injection H as <- <-. reflexivity. Qed.
Lemma str_sound ts n r : str ts = Some (n, r) -> ts = Str n :: r.
Proof. destruct ts as [|[] ts]; try discriminate. simpl. intros H. injection H as <- <-. reflexivity. Qed.

Lemma attribute_sound t a : attribute_of t = Some a -> mask_attribute t a.
Proof. destruct t as [| | | | | |[]| | | | |]; try discriminate; intros H; injection H as <-; constructor. Qed.
Lemma attribute_complete t a : mask_attribute t a -> attribute_of t = Some a.
Proof. destruct 1; reflexivity. Qed.
Lemma attributes_sound ts : forall l r, attributes ts = (l, r) -> exists us, ts = us ++ r /\ Forall2 mask_attribute us l.
Proof.
  induction ts as [|t ts IH]; intros l r H; simpl in H.
  - injection H as <- <-. exists []. split; [reflexivity|constructor].
  - destruct (attribute_of t) eqn:A.
    + destruct (attributes ts) as [l' r'] eqn:E. injection H as <- <-. destruct (IH _ _ eq_refl) as (us & -> & F).
      exists (t :: us). split; [reflexivity|]. constructor; [apply attribute_sound, A|exact F].
    + injection H as <- <-. exists []. split; [reflexivity|constructor].
Qed.
Lemma attributes_complete us l r : Forall2 mask_attribute us l -> follow r -> attributes (us ++ r) = (l, r).
Proof.
  intros H F. induction H as [|t a us l A H IH]; simpl.
  - destruct r as [|t r]; [reflexivity|]. simpl. destruct F as [F _]. rewrite F. reflexivity.
  - rewrite (attribute_complete _ _ A), IH. reflexivity.
Qed.
Lemma mask_sound ts m r : mask_value ts = Some (m, r) ->
  exists us, ts = Str (fst m) :: us ++ r /\ Forall2 mask_attribute us (snd m).
Proof.
  unfold mask_value. destruct (str ts) as [[s t]|] eqn:E; [|discriminate]. apply str_sound in E. subst ts.
  destruct (attributes t) as [l r'] eqn:A. intros H. injection H as <- <-.
  destruct (attributes_sound _ _ _ A) as (us & -> & F). exists us. split; [reflexivity|exact F].
Qed.

(* ---- pairs ---- *)

Record reads {K} (P : keyword -> list token -> K -> Prop) (value : keyword -> list token -> result K) : Prop := mk_reads {
  rd_sound : forall k ts x r, value k ts = Some (x, r) -> exists vs, ts = vs ++ r /\ P k vs x;
  rd_complete : forall k vs x r, P k vs x -> follow r -> value k (vs ++ r) = Some (x, r);
  rd_key : forall k vs x, P k vs x -> attribute_of (Kw k) = None }.

Lemma pairs_follow {K} (P : keyword -> list token -> K -> Prop) ts l r :
  (forall k vs x, P k vs x -> attribute_of (Kw k) = None) -> pairs P ts l -> follow r -> follow (ts ++ r).
Proof.
  intros KP H F. destruct H; simpl; [exact F|split; [reflexivity|discriminate]|split; [eauto|discriminate]].
Qed.

Lemma until_sound {K} (P : keyword -> list token -> K -> Prop) value stop : reads P value ->
  forall f ts l r, pairs_until stop value f ts = Some (l, r) ->
  exists us t r', ts = us ++ r /\ pairs P us l /\ r = t :: r' /\ stop t = true.
Proof.
  intros R. induction f as [|f IH]; intros ts l r H; (destruct ts as [|t ts]; [discriminate|]); cbn [pairs_until] in H.
  - destruct (stop t) eqn:S; [|discriminate]. injection H as <- <-. exists [], t, ts. repeat split; [constructor|exact S].
  - destruct (stop t) eqn:S.
    + injection H as <- <-. exists [], t, ts. repeat split; [constructor|exact S].
    + destruct (pair_or_comma value (t :: ts)) as [[a r1]|] eqn:E; [|discriminate].
      apply give_some in H. destruct H as (b & H & <-). apply IH in H.
      destruct H as (us & t' & r' & -> & PS & -> & ST).
      destruct t; try discriminate; cbn [pair_or_comma] in E.
      * injection E as <- ->. exists (Comma :: us), t', r'. repeat split; [constructor; exact PS|exact ST].
      * destruct ts as [|[] ts]; try discriminate. apply give_some in E. destruct E as (x & E & <-).
        apply (rd_sound P value R) in E. destruct E as (vs & -> & Px).
        exists (Kw k :: Colon :: vs ++ us), t', r'. cbn [app]. rewrite <- app_assoc.
        repeat split; [constructor; assumption|exact ST].
Qed.

Lemma until_complete {K} (P : keyword -> list token -> K -> Prop) value stop : reads P value ->
  (forall k vs x, P k vs x -> stop (Kw k) = false) -> stop Comma = false ->
  forall us l t r, pairs P us l -> stop t = true -> follow (t :: r) ->
  forall f, List.length us <= f -> pairs_until stop value f (us ++ t :: r) = Some (l, t :: r).
Proof.
  intros R SK SC us l t r H S F. induction H as [|us l H IH|k vs x us l Px H IH]; intros f L.
  - destruct f; cbn [app pairs_until]; rewrite S; reflexivity.
  - destruct f as [|f]; [simpl in L; lia|]. cbn [app pairs_until]. rewrite SC. cbn [pair_or_comma].
    rewrite IH by (simpl in L; lia). reflexivity.
  - destruct f as [|f]; [simpl in L; lia|]. cbn [app pairs_until]. rewrite (SK _ _ _ Px). cbn [pair_or_comma].
    rewrite <- app_assoc, (rd_complete P value R) with (x := x); [|exact Px|].
    + cbn [give]. rewrite IH; [reflexivity|]. simpl in L. rewrite app_length in L. lia.
    + apply (pairs_follow P us l); [apply (rd_key P value R)|exact H|exact F].
Qed.

Section Objects.
Context {K : Type} (P : keyword -> list token -> K -> Prop) (value : keyword -> list token -> result K).
Hypothesis R : reads P value.

Lemma rest_sound ts l r : rest_of_object value ts = Some (l, r) -> exists us, ts = us ++ CloseCu :: r /\ pairs P us l.
Proof.
  unfold rest_of_object. destruct (pairs_until _ _ _ _) as [[l' [|[] r']]|] eqn:E; try discriminate.
  intros H. injection H as <- <-. apply (until_sound P _ _ R) in E. destruct E as (us & t & r0 & -> & PS & E & _).
  exists us. split; [reflexivity|exact PS].
Qed.
Lemma rest_complete us l r : pairs P us l -> rest_of_object value (us ++ CloseCu :: r) = Some (l, r).
Proof.
  intros H. unfold rest_of_object. rewrite (until_complete P value is_close R) with (l := l); try reflexivity; auto.
  - split; [reflexivity|discriminate].
  - rewrite app_length. lia.
Qed.
Lemma object_sound ts l r : object value ts = Some (l, r) ->
  exists us, ts = OpenCu :: us ++ CloseCu :: r /\ pairs P us l /\ us <> [].
Proof.
  destruct ts as [|[] ts]; try discriminate. intros H. assert (X : rest_of_object value ts = Some (l, r) /\ forall t, ts <> CloseCu :: t).
  { cbn [object] in H. destruct ts as [|[] ts]; try discriminate; split; try exact H; discriminate. }
  destruct X as [X N]. apply rest_sound in X. destruct X as (us & -> & PS). exists us. split; [reflexivity|]. split; [exact PS|].
  intros ->. apply (N r). reflexivity.
Qed.
Lemma object_complete us l r : pairs P us l -> us <> [] -> object value (OpenCu :: us ++ CloseCu :: r) = Some (l, r).
Proof.
  intros H N. pose proof (rest_complete us l r H) as X. destruct H; [contradiction|exact X|exact X].
Qed.
Lemma named_sound ts n l r : object_named value ts = Some ((n, l), r) ->
  exists us, ts = OpenCu :: Kw KwName :: Colon :: Str n :: us ++ CloseCu :: r /\ pairs P us l.
Proof.
  intros H. unfold object_named in H.
  destruct ts as [|t0 ts]; [discriminate|]. destruct t0; try discriminate.
  destruct ts as [|t0 ts]; [discriminate|]. destruct t0; try discriminate. destruct k; try discriminate.
  destruct ts as [|t0 ts]; [discriminate|]. destruct t0; try discriminate.
  destruct ts as [|t0 ts]; [discriminate|]. destruct t0; try discriminate.
  apply give_some in H. destruct H as (l' & H & E). injection E as -> ->. apply rest_sound in H. destruct H as (us & -> & PS). eauto.
Qed.
Lemma named_complete n us l r : pairs P us l ->
  object_named value (OpenCu :: Kw KwName :: Colon :: Str n :: us ++ CloseCu :: r) = Some ((n, l), r).
Proof. intros H. cbn [object_named]. rewrite rest_complete with (l := l) by exact H. reflexivity. Qed.

Lemma around_sound stop key ts l s r : (forall t, stop t = true -> t = Kw key) -> object_around stop value ts = Some ((l, s), r) ->
  exists us m vs p, ts = OpenCu :: us ++ Kw key :: Colon :: Str s :: vs ++ CloseCu :: r /\ pairs P us m /\ pairs P vs p /\ l = m ++ p.
Proof.
  intros SK H. unfold object_around in H. destruct ts as [|t0 ts]; [discriminate|]. destruct t0; try discriminate.
  destruct (pairs_until _ _ _ _) as [[m q]|] eqn:E; [|discriminate].
  destruct q as [|t q]; [discriminate|]. destruct q as [|t0 q]; [discriminate|]. destruct t0; try discriminate.
  destruct q as [|t0 q]; [discriminate|]. destruct t0; try discriminate.
  apply give_some in H. destruct H as (p & H & X). injection X as <- <-.
  apply (until_sound P _ _ R) in E. destruct E as (us & t' & r0 & -> & PS & E & ST). injection E as -> <-.
  apply SK in ST. subst t'. apply rest_sound in H. destruct H as (vs & -> & PV).
  exists us, m, vs, p. auto.
Qed.
Lemma around_complete stop key us m s vs p r : stop (Kw key) = true -> attribute_of (Kw key) = None ->
  (forall k vs x, P k vs x -> stop (Kw k) = false) -> stop Comma = false -> pairs P us m -> pairs P vs p ->
  object_around stop value (OpenCu :: us ++ Kw key :: Colon :: Str s :: vs ++ CloseCu :: r) = Some ((m ++ p, s), r).
Proof.
  intros SK A SP SC H G. cbn [object_around]. rewrite (until_complete P value stop R) with (l := m); auto.
  - rewrite rest_complete with (l := p) by exact G. reflexivity.
  - split; [exact A|discriminate].
  - rewrite app_length. lia.
Qed.
End Objects.

(* ---- the objects ---- *)

Ltac sound_head := match goal with
  | H : give _ _ = Some _ |- _ => apply give_some in H; destruct H as (? & H & <-)
  end.

Lemma resolution_reads : reads resolution_pair resolution_value.
Proof.
  split.
  - intros k ts x r H. destruct k; try discriminate; cbn [resolution_value] in H; sound_head; apply uint_sound in H; subst ts;
      eexists [_]; split; try reflexivity; constructor.
  - destruct 1; reflexivity.
  - destruct 1; reflexivity.
Qed.

Ltac words H ts := destruct ts as [|[| | | | | |[]| | | | |] ts]; try discriminate;
  injection H as <- <-; eexists [_]; (split; [reflexivity|]); constructor.

Lemma filter_reads : reads filter_pair filter_value.
Proof.
  split.
  - intros k ts x r H. destruct k; try discriminate; cbn [filter_value] in H.
    + sound_head. apply one_number_sound in H. destruct H as (t & -> & V). exists [t]. split; [reflexivity|]. constructor. exact V.
    + sound_head. apply one_number_sound in H. destruct H as (t & -> & V). exists [t]. split; [reflexivity|]. constructor. exact V.
    + words H ts.
    + words H ts.
  - destruct 1; intros F; try reflexivity; cbn [app filter_value]; rewrite one_number_complete with (q := q) by assumption; reflexivity.
  - destruct 1; reflexivity.
Qed.

Ltac by_vector := match goal with
  | H : vector _ = Some _ |- _ => apply vector_sound in H; destruct H as (vs & -> & V); exists vs; split; [reflexivity|]; constructor; exact V
  end.
Ltac by_number := match goal with
  | H : one_number _ = Some _ |- _ => apply one_number_sound in H; destruct H as (t & -> & V); exists [t]; split; [reflexivity|]; constructor; exact V
  end.
Ltac by_string := match goal with
  | H : str _ = Some _ |- _ => apply str_sound in H; rewrite H; eexists [_]; split; [reflexivity|]; constructor
  end.

Lemma camera_reads : reads camera_pair camera_value.
Proof.
  split.
  - intros k ts x r H. destruct k; try discriminate; cbn [camera_value] in H; try (sound_head; by_vector); try (sound_head; by_number).
    words H ts.
  - destruct 1; intros F; try reflexivity; cbn [app camera_value]; try (rewrite vector_complete with (v := v) by assumption; reflexivity).
    rewrite one_number_complete with (q := q) by assumption. reflexivity.
  - destruct 1; reflexivity.
Qed.

Lemma world_sound k ts x r : world_value k ts = Some (x, r) -> exists vs, ts = vs ++ r /\ world_pair k vs x.
Proof.
  intros H. destruct k; try discriminate; cbn [world_value] in H; try (sound_head; by_vector); try (sound_head; by_string).
  - destruct (vector ts) as [[v r']|] eqn:E.
    + injection H as <- <-. by_vector.
    + sound_head. by_number.
  - sound_head. apply mask_sound in H. destruct H as (us & -> & F). exists (Str (fst x0) :: us). split; [reflexivity|].
    constructor. exact F.
Qed.
Lemma world_complete k vs x r : world_pair k vs x -> follow r -> world_value k (vs ++ r) = Some (x, r).
Proof.
  destruct 1; intros F; cbn [app world_value]; try (rewrite vector_complete with (v := v) by assumption; reflexivity).
  - rewrite (vector_number t q) by assumption. rewrite one_number_complete with (q := q) by assumption. reflexivity.
  - reflexivity.
  - unfold mask_value. cbn [str]. rewrite attributes_complete with (l := l) by assumption. reflexivity.
Qed.
Lemma world_reads : reads world_pair world_value.
Proof. split; [apply world_sound|apply world_complete|destruct 1; reflexivity]. Qed.

Lemma light_reads : reads light_pair light_value.
Proof.
  split.
  - intros k ts x r H.
    assert (W : world_value k ts = Some (x, r) -> exists vs, ts = vs ++ r /\ light_pair k vs x).
    { intros X. apply world_sound in X. destruct X as (vs & -> & X). exists vs. split; [reflexivity|]. constructor. exact X. }
    destruct k; try (apply W; exact H); cbn [light_value] in H; sound_head.
    + apply uint_sound in H. subst ts. eexists [_]. split; [reflexivity|]. apply li_temperature.
    + apply vector_sound in H. destruct H as (vs & -> & V). exists vs. split; [reflexivity|]. apply li_color. exact V.
  - destruct 1 as [k ts x W|n|ts v V]; intros F.
    + rewrite <- (world_complete k ts x r W F). destruct W; reflexivity.
    + reflexivity.
    + cbn [light_value]. rewrite vector_complete with (v := v) by assumption. reflexivity.
  - destruct 1 as [k ts x W|n|ts v V]; [destruct W|..]; reflexivity.
Qed.

Lemma texture_reads : reads texture_pair texture_value.
Proof.
  split.
  - intros k ts x r H. destruct k; try discriminate; cbn [texture_value] in H; try (sound_head; by_string).
    + destruct (vector2 ts) as [[v r']|] eqn:E.
      * injection H as <- <-. apply vector2_sound in E. destruct E as (vs & -> & V). exists vs. split; [reflexivity|]. constructor. exact V.
      * sound_head. apply one_number_sound in H. destruct H as (t & -> & V). exists [t]. split; [reflexivity|].
        apply t_scale1. exact V.
    + sound_head. apply vector2_sound in H. destruct H as (vs & -> & V). exists vs. split; [reflexivity|]. constructor. exact V.
  - destruct 1; intros F; cbn [app texture_value].
    + reflexivity.
    + rewrite vector2_complete with (v := v) by assumption. reflexivity.
    + rewrite (vector2_number t q) by assumption. rewrite one_number_complete with (q := q) by assumption. reflexivity.
    + rewrite vector2_complete with (v := v) by assumption. reflexivity.
  - destruct 1; reflexivity.
Qed.

Lemma ior_sound ts x r : ior_value ts = Some (x, r) -> exists vs, ts = vs ++ r /\ material_pair KwIor vs (MIor x).
Proof.
  unfold ior_value. destruct (vector ts) as [[[[a b] c] r1]|] eqn:V.
  - apply vector_sound in V. destruct V as (vs & -> & V). destruct (vector r1) as [[w r2]|] eqn:W; intros H; injection H as <- <-.
    + apply vector_sound in W. destruct W as (us & -> & W). exists (vs ++ us). rewrite app_assoc. split; [reflexivity|].
      apply m_ior6; assumption.
    + exists vs. split; [reflexivity|]. apply m_ior3. exact V.
  - destruct (vector2 ts) as [[[a b] r1]|] eqn:W; intros H.
    + injection H as <- <-. apply vector2_sound in W. destruct W as (us & -> & W). exists us. split; [reflexivity|]. apply m_ior2. exact W.
    + sound_head. apply one_number_sound in H. destruct H as (t & -> & X). exists [t]. split; [reflexivity|]. apply m_ior1. exact X.
Qed.

Lemma string_or_vector {K} (f : text -> K) (g : v3 -> K) ts x r :
  match ts with Str s :: r => Some (f s, r) | _ => give g (vector ts) end = Some (x, r) ->
  (exists s, ts = Str s :: r /\ x = f s) \/ (exists v vs, ts = vs ++ r /\ float3 vs v /\ x = g v).
Proof.
  intros H. destruct ts as [|t ts]; [discriminate|].
  destruct t; try discriminate.
  - right. apply give_some in H. destruct H as (v & H & <-). apply vector_sound in H. destruct H as (vs & E & V). eauto.
  - left. injection H as <- <-. eauto.
Qed.

Lemma material_reads : reads material_pair material_value.
Proof.
  split.
  - intros k ts x r H. destruct k; try discriminate; cbn [material_value] in H; try (sound_head; by_number).
    + words H ts.
    + sound_head. apply ior_sound in H. exact H.
    + words H ts.
    + apply (string_or_vector MDiffuse MDiffuseU) in H. destruct H as [(s & -> & ->)|(v & vs & -> & V & ->)].
      * exists [Str s]. split; [reflexivity|constructor].
      * exists vs. split; [reflexivity|constructor; exact V].
    + apply (string_or_vector MSpecular MSpecularU) in H. destruct H as [(s & -> & ->)|(v & vs & -> & V & ->)].
      * exists [Str s]. split; [reflexivity|constructor].
      * exists vs. split; [reflexivity|constructor; exact V].
    + destruct ts as [|[] ts]; try discriminate. injection H as <- <-. eexists [_]. split; [reflexivity|constructor].
    + destruct ts as [|[] ts]; try discriminate. injection H as <- <-. eexists [_]. split; [reflexivity|constructor].
  - destruct 1; intros F; try reflexivity.
    + cbn [app material_value]. unfold ior_value. rewrite (vector_number t q), (vector2_number t q) by assumption.
      rewrite one_number_complete with (q := q) by assumption. reflexivity.
    + unfold material_value, ior_value. rewrite (vector_not2 ts (a, b)) by assumption.
      rewrite vector2_complete with (v := (a, b)) by assumption. destruct (ts ++ r); reflexivity.
    + unfold material_value, ior_value. rewrite vector_complete with (v := (a, b, c)) by assumption.
      rewrite vector_follow by exact F. destruct (ts ++ r); reflexivity.
    + unfold material_value, ior_value. rewrite <- app_assoc. destruct v as [[a b] c].
      rewrite vector_complete with (v := (a, b, c)) by assumption.
      rewrite vector_complete with (v := w) by assumption. destruct (ts ++ us ++ r); reflexivity.
    + cbn [app material_value]. rewrite one_number_complete with (q := q) by assumption. reflexivity.
    + cbn [app material_value]. rewrite one_number_complete with (q := q) by assumption. reflexivity.
    + pose proof (vector_complete ts v r H) as X. destruct H. cbn [app material_value] in *. rewrite X. reflexivity.
    + pose proof (vector_complete ts v r H) as X. destruct H. cbn [app material_value] in *. rewrite X. reflexivity.
  - destruct 1; reflexivity.
Qed.

Lemma dual_reads : reads dual_pair dual_value.
Proof.
  split.
  - intros k ts x r H. destruct k; try discriminate; cbn [dual_value] in H; try (sound_head; by_string).
    sound_head. apply mask_sound in H. destruct H as (us & -> & F). exists (Str (fst x0) :: us). split; [reflexivity|].
    constructor. exact F.
  - destruct 1; intros F; try reflexivity. cbn [app dual_value]. unfold mask_value. cbn [str].
    rewrite attributes_complete with (l := l) by assumption. reflexivity.
  - destruct 1; reflexivity.
Qed.

(* ---- statements ---- *)

Lemma is_src_only t : is_src t = true -> t = Kw KwSrc.
Proof. destruct t as [| | | | | |[]| | | | |]; try discriminate. reflexivity. Qed.
Lemma is_name_only t : is_name t = true -> t = Kw KwName.
Proof. destruct t as [| | | | | |[]| | | | |]; try discriminate. reflexivity. Qed.

Lemma statement_sound ts l r : statement ts = Some (l, r) -> exists us, ts = us ++ r /\ one_statement us l /\ us <> [].
Proof.
  intros H. destruct ts as [|t ts]; [discriminate|]. destruct t; try discriminate.
  - injection H as <- <-. exists [Comma]. split; [reflexivity|]. split; [constructor|discriminate].
  - cbn [statement] in H. destruct ts as [|t ts]; [discriminate|]. destruct t; try discriminate.
    assert (X : exists us, ts = us ++ r /\ one_statement (Kw k :: Colon :: us) l).
    2:{ destruct X as (us & -> & X). exists (Kw k :: Colon :: us). split; [reflexivity|]. split; [exact X|discriminate]. }
    destruct k; try discriminate; cbn [statement_value] in H.
    + sound_head. apply str_sound in H. subst ts. eexists [_]. split; [reflexivity|constructor].
    + destruct ts as [|[| | | | | |[]| | | | |] ts]; try discriminate. injection H as <- <-. eexists [_]. split; [reflexivity|constructor].
    + apply (object_sound _ _ resolution_reads) in H. destruct H as (us & -> & P & N). exists (OpenCu :: us ++ [CloseCu]).
      cbn [app]. rewrite <- app_assoc. split; [reflexivity|constructor; assumption].
    + sound_head. apply uint_sound in H. subst ts. eexists [_]. split; [reflexivity|constructor].
    + destruct ts as [|[| | | | | |[]| | | | |] ts]; try discriminate; injection H as <- <-; eexists [_]; split; try reflexivity; constructor.
    + apply (object_sound _ _ filter_reads) in H. destruct H as (us & -> & P & N). exists (OpenCu :: us ++ [CloseCu]).
      cbn [app]. rewrite <- app_assoc. split; [reflexivity|constructor; assumption].
    + apply (object_sound _ _ camera_reads) in H. destruct H as (us & -> & P & N). exists (OpenCu :: us ++ [CloseCu]).
      cbn [app]. rewrite <- app_assoc. split; [reflexivity|constructor; assumption].
    + sound_head. apply str_sound in H. subst ts. eexists [_]. split; [reflexivity|constructor].
    + sound_head. destruct x as [n m]. apply (named_sound _ _ world_reads) in H. destruct H as (us & -> & P).
      exists (OpenCu :: Kw KwName :: Colon :: Str n :: us ++ [CloseCu]). cbn [app]. rewrite <- app_assoc.
      split; [reflexivity|constructor; assumption].
    + sound_head. destruct x as [n m]. apply (named_sound _ _ light_reads) in H. destruct H as (us & -> & P).
      exists (OpenCu :: Kw KwName :: Colon :: Str n :: us ++ [CloseCu]). cbn [app]. rewrite <- app_assoc.
      split; [reflexivity|constructor; assumption].
    + destruct ts as [|t ts]; [discriminate|].
      assert (X : (exists s, t = Str s /\ Some ([Child s], ts) = Some (l, r)) \/
                  give (fun x => [Material (snd x, fst x)]) (object_around is_name material_value (t :: ts)) = Some (l, r)).
      { destruct t; eauto. }
      destruct X as [(s & -> & X)|X].
      * injection X as <- <-. eexists [_]. split; [reflexivity|constructor].
      * clear H. sound_head. destruct x as [m s]. apply (around_sound _ _ material_reads is_name KwName) in X; [|apply is_name_only].
        destruct X as (us & p & vs & q & -> & P1 & P2 & ->).
        exists (OpenCu :: us ++ Kw KwName :: Colon :: Str s :: vs ++ [CloseCu]).
        cbn [app fst snd]. rewrite <- !app_assoc. cbn [app]. rewrite <- !app_assoc. split; [reflexivity|constructor; assumption].
    + sound_head. destruct x as [m s]. apply (around_sound _ _ dual_reads is_name KwName) in H; [|apply is_name_only].
      destruct H as (us & p & vs & q & -> & P1 & P2 & ->).
      exists (OpenCu :: us ++ Kw KwName :: Colon :: Str s :: vs ++ [CloseCu]).
      cbn [app fst snd]. rewrite <- !app_assoc. cbn [app]. rewrite <- !app_assoc. split; [reflexivity|constructor; assumption].
    + sound_head. destruct x as [m s]. apply (around_sound _ _ texture_reads is_src KwSrc) in H; [|apply is_src_only].
      destruct H as (us & p & vs & q & -> & P1 & P2 & ->).
      exists (OpenCu :: us ++ Kw KwSrc :: Colon :: Str s :: vs ++ [CloseCu]).
      cbn [app fst snd]. rewrite <- !app_assoc. cbn [app]. rewrite <- !app_assoc. split; [reflexivity|constructor; assumption].
Qed.

Lemma statement_complete us l r : one_statement us l -> statement (us ++ r) = Some (l, r).
Proof.
  destruct 1; try reflexivity; cbn [app statement statement_value].
  - rewrite <- app_assoc. cbn [app]. apply (object_complete _ _ resolution_reads); assumption.
  - rewrite <- app_assoc. cbn [app]. apply (object_complete _ _ filter_reads); assumption.
  - rewrite <- app_assoc. cbn [app]. apply (object_complete _ _ camera_reads); assumption.
  - rewrite <- app_assoc. cbn [app]. rewrite (named_complete _ _ world_reads) with (l := l) by assumption. reflexivity.
  - rewrite <- app_assoc. cbn [app]. rewrite (named_complete _ _ light_reads) with (l := l) by assumption. reflexivity.
  - rewrite <- app_assoc. cbn [app]. rewrite <- app_assoc. cbn [app].
    rewrite (around_complete _ _ texture_reads is_src KwSrc) with (m := l) (p := m); auto.
    intros k vs x PX. destruct PX; reflexivity.
  - rewrite <- app_assoc. cbn [app]. rewrite <- app_assoc. cbn [app].
    rewrite (around_complete _ _ material_reads is_name KwName) with (m := l) (p := m); auto.
    intros k vs x PX. destruct PX; reflexivity.
  - rewrite <- app_assoc. cbn [app]. rewrite <- app_assoc. cbn [app].
    rewrite (around_complete _ _ dual_reads is_name KwName) with (m := l) (p := m); auto.
    intros k vs x PX. destruct PX; reflexivity.
Qed.

Lemma statements_sound : forall f ts l, statements f ts = Some l -> statement_list ts l.
Proof.
  induction f as [|f IH]; intros ts l H; (destruct ts as [|t ts]; [simpl in H; injection H as <-; constructor|]); [discriminate|].
  cbn [statements] in H. destruct (statement (t :: ts)) as [[a r]|] eqn:E; [|discriminate].
  destruct (statements f r) as [m|] eqn:M; [|discriminate]. injection H as <-.
  apply statement_sound in E. destruct E as (us & -> & S & _). constructor; [exact S|apply IH, M].
Qed.

Lemma one_statement_nonempty us l : one_statement us l -> us <> [].
Proof. destruct 1; discriminate. Qed.

Lemma statements_prefix ts l : statement_list ts l -> forall f r, List.length (ts ++ r) <= f ->
  exists g, List.length r <= g /\ statements f (ts ++ r) = match statements g r with Some m => Some (l ++ m) | None => None end.
Proof.
  induction 1 as [|ts l us m S H IH]; intros f r L.
  - exists f. split; [exact L|]. simpl. destruct (statements f r); reflexivity.
  - pose proof (one_statement_nonempty _ _ S) as N. rewrite <- app_assoc in *.
    destruct ts as [|t ts]; [contradiction|]. destruct f as [|f]; [simpl in L; lia|].
    destruct (IH f r) as (g & G & E).
    { rewrite app_length in L. simpl in L. lia. }
    exists g. split; [exact G|].
    change (statements (Datatypes.S f) ((t :: ts) ++ us ++ r)) with
      (match statement ((t :: ts) ++ us ++ r) with
       | Some (a, r) => match statements f r with Some l => Some (a ++ l) | None => None end | None => None end).
    rewrite (statement_complete (t :: ts) l) by exact S. rewrite E. destruct (statements g r); [rewrite app_assoc|]; reflexivity.
Qed.
