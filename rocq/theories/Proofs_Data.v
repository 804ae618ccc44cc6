From Coq Require Import List Bool Arith ZArith QArith Lia Permutation Sorting.Sorted.
From Verif Require Import Base_Prelude Base_Num Base_Order Base_Sum Model_Images Model_Loader
  Model_Data Spec_Images Spec_Data Proofs_Images.
Import ListNotations.
Open Scope nat_scope.
Local Arguments feq : simpl never.
Local Arguments flt : simpl never.

(** ** Dictionaries *)
Lemma dget_in {V} (d : dict pyfloat V) k v :
  numeric_keys d -> In (k, v) d -> dget feq k d = Some v.
Proof.
  unfold numeric_keys. intros (N & D). induction d as [|[k' v'] d IH]; simpl; [tauto|].
  simpl in N, D. inversion N as [|? ? Nk N']; subst. apply distinct_cons in D. destruct D as (D1 & D2).
  intros [E|H].
  - injection E as -> ->. rewrite feq_refl; auto.
  - rewrite Forall_forall in D1. rewrite (feq_comm k k').
    rewrite D1 by (apply (in_map fst) in H; auto). apply IH; auto.
Qed.

Lemma dget_some {V} (d : dict pyfloat V) k v :
  dget feq k d = Some v -> exists k', feq k k' = true /\ In (k', v) d.
Proof.
  induction d as [|[k' v'] d IH]; simpl; [discriminate|]. destruct (feq k k') eqn:E.
  - intro H. injection H as ->. exists k'. auto.
  - intro H. destruct (IH H) as (x & Hx & Hi). exists x. auto.
Qed.

Lemma dget_feq {V} (d : dict pyfloat V) k k' v :
  numeric_keys d -> In (k', v) d -> feq k k' = true -> dget feq k d = Some v.
Proof.
  unfold numeric_keys. intros (N & D). induction d as [|[a b] d IH]; simpl; [tauto|].
  simpl in N, D. inversion N as [|? ? Nk N']; subst. apply distinct_cons in D. destruct D as (D1 & D2).
  intros [E|H] F.
  - injection E as -> ->. rewrite F. reflexivity.
  - destruct (feq k a) eqn:G.
    + exfalso. rewrite feq_comm in G. pose proof (feq_tr _ _ _ G F) as Q.
      rewrite Forall_forall in D1. rewrite D1 in Q; [discriminate|].
      apply (in_map fst) in H. auto.
    + apply IH; auto.
Qed.

Lemma numeric_perm {V} (a b : dict pyfloat V) : Permutation a b -> numeric_keys a -> numeric_keys b.
Proof.
  intros P (N & D). pose proof (Permutation_map fst P) as Q. split.
  - eapply Permutation_Forall; eauto.
  - eapply distinct_perm; eauto.
Qed.

Lemma sort_entries {V} (d : dict pyfloat V) :
  exists E, map fst E = py_sorted (dkeys d) /\ Permutation E d.
Proof.
  destruct (Permutation_map_inv _ _ (sorted_perm (dkeys d))) as (E & HE & P).
  exists E. split; auto. apply Permutation_sym. auto.
Qed.

Lemma filter_perm {A} (f : A -> bool) a b : Permutation a b -> Permutation (filter f a) (filter f b).
Proof.
  induction 1; simpl; auto.
  - destruct (f x); auto.
  - destruct (f x), (f y); auto. apply perm_swap.
  - eapply Permutation_trans; eauto.
Qed.

Lemma mapM_map {A B C} (f : A -> res B) (g : C -> B) (k : C -> A) l :
  (forall x, In x l -> f (k x) = Ok (g x)) -> mapM f (map k l) = Ok (map g l).
Proof.
  induction l as [|x l IH]; simpl; intro H; auto. rewrite H by auto. simpl.
  rewrite IH by auto. reflexivity.
Qed.

(** ** One exposure *)
Definition row_of (n : nat) (x : pyfloat * tdata) : pyfloat * Q * Q :=
  (fst x, td_mean n (snd x), td_s2 n (snd x)).

Definition exposure_row (n : nat) (inner : dict pyfloat tdata) (r : Q * Q * list (pyfloat * Q * Q)) : Prop :=
  exists z d0 E, In (z, d0) inner /\ is_dark z /\ Permutation E inner /\
    StronglySorted (fun a b => flt (fst a) (fst b) = true) E /\
    r = (td_mean n d0, td_s2 n d0, map (row_of n) (tl E)).

Lemma ssorted_map {A B} (f : A -> B) (R : B -> B -> Prop) l :
  StronglySorted R (map f l) <-> StronglySorted (fun a b => R (f a) (f b)) l.
Proof.
  induction l as [|x l IH]; simpl; [split; constructor|].
  split; intro H; inversion H as [|? ? H1 H2]; subst; constructor.
  - apply IH; auto.
  - rewrite Forall_map in H2. auto.
  - apply IH; auto.
  - rewrite Forall_map. auto.
Qed.

Lemma exposure_outcome n data t inner :
  well_keyed data -> In (t, inner) data ->
  (complete inner /\ exists r, temporal_exposure n data t = Ok r /\ exposure_row n inner r) \/
  (~ complete inner /\ temporal_exposure n data t = Err ValueError).
Proof.
  intros (K & KI) Hin. unfold temporal_exposure. rewrite (dget_in data t inner K Hin). simpl bind.
  rewrite Forall_forall in KI. specialize (KI _ Hin). simpl in KI.
  destruct (sort_entries inner) as (E & HE & P). rewrite <- HE.
  assert (EX : existsb (feq fzero) (map fst E) = true <-> Exists (fun x => is_dark (fst x)) inner).
  { rewrite existsb_exists, Exists_exists. unfold is_dark. split.
    - intros (p & Hp & F). apply in_map_iff in Hp. destruct Hp as (x & <- & Hx).
      exists x. split; auto. eapply Permutation_in; eauto.
    - intros (x & Hx & F). exists (fst x). split; auto. apply in_map.
      eapply Permutation_in; [apply Permutation_sym|]; eauto. }
  destruct (existsb (feq fzero) (map fst E)) eqn:X; simpl negb; cbv iota.
  2:{ right. split; auto. intros (C & _). apply EX in C. discriminate. }
  rewrite map_length, (Permutation_length P).
  destruct (length inner <? 2) eqn:L.
  { right. split; auto. intros (_ & C). apply Nat.ltb_lt in L. lia. }
  apply Nat.ltb_ge in L. left.
  assert (C : Exists (fun x => is_dark (fst x)) inner) by (apply EX; auto).
  split; [split; auto|]. apply Exists_exists in C. destruct C as ((z & d0) & Hz & F). simpl in F.
  rewrite (dget_feq inner fzero z d0 KI Hz F). simpl bind.
  replace (tl (map fst E)) with (map fst (tl E)) by (destruct E; auto).
  rewrite (mapM_map _ (row_of n) fst (tl E)).
  - simpl. eexists. split; [reflexivity|]. exists z, d0, E. repeat split; auto.
    pose proof (py_sorted_strict (dkeys inner) (proj1 KI) (proj2 KI)) as S.
    rewrite <- HE in S. apply ssorted_map in S. auto.
  - intros (p & d) Hp. simpl.
    assert (Hi : In (p, d) inner).
    { eapply Permutation_in; [exact P|]. destruct E; simpl in *; auto. }
    rewrite (dget_in inner p d KI Hi). reflexivity.
Qed.

(** ** All exposures *)
Lemma rows_outcome n data : well_keyed data -> forall D,
  (forall e, In e D -> In e data) ->
  (Forall (fun e => complete (snd e)) D /\
   exists rows, mapM (temporal_exposure n data) (map fst D) = Ok rows /\
     Forall2 (fun e r => exposure_row n (snd e) r) D rows) \/
  (Exists (fun e => ~ complete (snd e)) D /\
   mapM (temporal_exposure n data) (map fst D) = Err ValueError).
Proof.
  intros K. induction D as [|[t inner] D IH]; intro H.
  - left. split; [constructor|]. exists []. split; [reflexivity|constructor].
  - simpl. destruct (exposure_outcome n data t inner K (H _ (or_introl eq_refl)))
      as [(C & r & E & R)|(C & E)]; rewrite E; simpl bind.
    + destruct IH as [(CD & rows & E' & R')|(CD & E')]; [intros; apply H; right; auto| |]; rewrite E'; simpl.
      * left. split; [constructor; auto|]. exists (r :: rows). split; auto.
      * right. split; [apply Exists_cons_tl; auto|reflexivity].
    + right. split; [apply Exists_cons_hd; auto|reflexivity].
Qed.

Definition temporal_of (exposures : list pyfloat) (rows : list (Q * Q * list (pyfloat * Q * Q))) : temporal :=
  let points := flat_map (fun r => snd r) rows in
  let up := map (fun x => fst (fst x)) points in
  let uy := map (fun x => snd (fst x)) points in
  let s2y := map (fun x => snd x) points in
  let ud := map (fun r => fst (fst r)) rows in
  let s2d := map (fun r => snd (fst r)) rows in
  if length exposures =? 1 then
    mkTemporal (spread (length up) exposures) up uy s2y (spread (length up) ud) (spread (length up) s2d)
  else mkTemporal exposures up uy s2y ud s2d.

Lemma temporal_outcome n data : well_keyed data ->
  (Forall (fun e => complete (snd e)) data /\
   exists D rows, Permutation D data /\ StronglySorted (fun a b => flt (fst a) (fst b) = true) D /\
     Forall2 (fun e r => exposure_row n (snd e) r) D rows /\
     get_temporal n data = Ok (temporal_of (map fst D) rows)) \/
  (Exists (fun e => ~ complete (snd e)) data /\ get_temporal n data = Err ValueError).
Proof.
  intro K. unfold get_temporal. destruct (sort_entries data) as (D & HD & P). rewrite <- HD.
  destruct (rows_outcome n data K D) as [(C & rows & E & R)|(C & E)].
  { intros e He. eapply Permutation_in; eauto. }
  - left. split; [eapply Permutation_Forall; eauto|]. exists D, rows.
    split; auto. split.
    + destruct K as ((K1 & K2) & _). pose proof (py_sorted_strict _ K1 K2) as S.
      unfold dkeys in HD. rewrite <- HD in S. apply ssorted_map in S. auto.
    + split; auto. rewrite E. simpl bind. unfold temporal_of.
      destruct (length (map fst D) =? 1); reflexivity.
  - right. split.
    + apply Exists_exists in C. destruct C as (e & He & N). apply Exists_exists. exists e. split; auto.
      eapply Permutation_in; eauto.
    + rewrite E. reflexivity.
Qed.

(** C19 *)
Lemma temporal_error_iff n data e : well_keyed data ->
  (get_temporal n data = Err e <-> e = ValueError /\ Exists (fun x => ~ complete (snd x)) data).
Proof.
  intro K. destruct (temporal_outcome n data K) as [(C & D & rows & _ & _ & _ & E)|(C & E)]; rewrite E; split.
  - discriminate.
  - intros (_ & X). exfalso. apply Exists_exists in X. destruct X as (x & Hx & N).
    rewrite Forall_forall in C. auto.
  - intro H. injection H as <-. auto.
  - intros (-> & _). reflexivity.
Qed.

(** ** Bright points *)
Definition mkpts (t : pyfloat) (E : dict pyfloat tdata) : list (point tdata) :=
  map (fun x => mkPt tdata t (fst x) (snd x)) E.

Definition pt_row (n : nat) (x : point tdata) : pyfloat * Q * Q :=
  (pt_p x, td_mean n (pt_d x), td_s2 n (pt_d x)).

Lemma tail_is_bright (E : dict pyfloat tdata) :
  Forall not_nan (map fst E) ->
  StronglySorted (fun a b => flt (fst a) (fst b) = true) E ->
  nonneg_counts E -> Exists (fun x => is_dark (fst x)) E ->
  tl E = filter (fun x => negb (feq fzero (fst x))) E.
Proof.
  intros N S P X. destruct E as [|e E]; [reflexivity|]. simpl.
  inversion S as [|? ? S' F]; subst. inversion P as [|? ? P1 P2]; subst.
  inversion N as [|? ? N1 N2]; subst.
  assert (He : feq fzero (fst e) = true).
  { inversion X as [? ? Hx|? ? Hx]; subst; auto. apply Exists_exists in Hx.
    destruct Hx as (x & Hx & Dx). rewrite Forall_forall in F. specialize (F x Hx).
    unfold is_dark in Dx. rewrite <- (feq_flt_r _ _ (fst e) Dx) in F. congruence. }
  rewrite He. simpl.
  assert (G : Forall (fun x => negb (feq fzero (fst x)) = true) E).
  { rewrite Forall_forall in *. intros x Hx. apply negb_true_iff.
    destruct (feq fzero (fst x)) eqn:Q; auto. specialize (F x Hx).
    rewrite <- (feq_flt_r _ _ (fst e) Q), <- (feq_flt_l _ _ fzero He), flt_irrefl in F. discriminate. }
  clear - G. induction G as [|x l Hx G IH]; simpl; auto. rewrite Hx. f_equal. auto.
Qed.

Lemma mkpts_sorted t E :
  StronglySorted (fun a b => flt (fst a) (fst b) = true) E -> StronglySorted point_lt (mkpts t E).
Proof.
  intro S. apply ssorted_map. eapply StronglySorted_ind with (P := fun l => StronglySorted _ l); [| |exact S].
  - constructor.
  - intros a l _ IH F. constructor; auto. eapply Forall_impl; [|exact F].
    intros x Hx. right. simpl. auto.
Qed.

Lemma ssorted_app {A} (R : A -> A -> Prop) a b :
  StronglySorted R a -> StronglySorted R b -> (forall x y, In x a -> In y b -> R x y) ->
  StronglySorted R (a ++ b).
Proof.
  intros Sa Sb H. induction Sa as [|x a Sa IH F]; simpl; auto. constructor.
  - apply IH. intros; apply H; simpl; auto.
  - apply Forall_app. split; auto. apply Forall_forall. intros y Hy. apply H; simpl; auto.
Qed.

Lemma ssorted_tl {A} (R : A -> A -> Prop) l : StronglySorted R l -> StronglySorted R (tl l).
Proof. intro S. destruct S; simpl; auto. constructor. Qed.

Lemma numeric_nonneg_perm (E inner : dict pyfloat tdata) :
  Permutation E inner -> numeric_keys inner -> complete inner -> nonneg_counts inner ->
  StronglySorted (fun a b => flt (fst a) (fst b) = true) E ->
  tl E = filter (fun x => negb (feq fzero (fst x))) E.
Proof.
  intros P N C NN S. apply tail_is_bright; auto.
  - apply (numeric_perm _ _ (Permutation_sym P)) in N. apply N.
  - unfold nonneg_counts in *. eapply Permutation_Forall; [apply Permutation_sym|]; eauto.
  - destruct C as (C & _). apply Exists_exists in C. destruct C as (x & Hx & F).
    apply Exists_exists. exists x. split; auto.
    eapply Permutation_in; [apply Permutation_sym|]; eauto.
Qed.

Lemma points_of_rows n : forall D rows,
  Forall2 (fun e r => exposure_row n (snd e) r) D rows ->
  Forall (fun e => numeric_keys (snd e)) D -> Forall (fun e => complete (snd e)) D ->
  StronglySorted (fun a b => flt (fst a) (fst b) = true) D ->
  exists pts, flat_map (fun r => snd r) rows = map (pt_row n) pts /\
    StronglySorted point_lt pts /\
    length pts + length D = length (flat_map snd D) /\
    (forall x, In x pts -> In (pt_t x) (map fst D)) /\
    (nonneg_photons D -> Permutation pts (bright_points D)) /\
    (Forall (fun e => length (snd e) = 2) D -> map (fun x => pt_t x) pts = map fst D) /\
    exists darks, Forall2 (fun e d => exists z, In (z, d) (snd e) /\ is_dark z) D darks /\
      map (fun r => fst (fst r)) rows = map (td_mean n) darks /\
      map (fun r => snd (fst r)) rows = map (td_s2 n) darks.
Proof.
  induction 1 as [|[t inner] r D rows R F IH]; intros KN C S.
  - exists []. simpl. repeat split; try constructor. + intros x [].
    + exists []. repeat split. constructor.
  - inversion KN as [|? ? K1 K2]; subst. inversion C as [|? ? C1 C2]; subst.
    inversion S as [|? ? S1 S2]; subst. simpl in K1, C1.
    destruct (IH K2 C2 S1) as (pts & E & Sp & L & T & B & A & darks & Fd & M1 & M2).
    destruct R as (z & d0 & En & Hz & Dz & P & Se & ->). simpl in P.
    exists (mkpts t (tl En) ++ pts). split; [|split; [|split; [|split; [|split; [|split]]]]].
    + simpl. rewrite E, map_app. f_equal. unfold mkpts. rewrite map_map. reflexivity.
    + apply ssorted_app; auto.
      * apply mkpts_sorted. apply ssorted_tl. auto.
      * intros x y Hx Hy. left. unfold mkpts in Hx. apply in_map_iff in Hx.
        destruct Hx as (q & <- & _). simpl. specialize (T y Hy). rewrite Forall_forall in S2.
        apply in_map_iff in T. destruct T as (e & <- & He). apply (S2 e He).
    + pose proof (Permutation_length P) as PL. destruct C1 as (_ & C1).
      unfold mkpts. simpl. rewrite !app_length, map_length.
      assert (length (tl En) + 1 = length inner) by (destruct En; simpl in *; lia). lia.
    + intros x Hx. apply in_app_or in Hx. destruct Hx as [Hx|Hx].
      * left. unfold mkpts in Hx. apply in_map_iff in Hx. destruct Hx as (q & <- & _). reflexivity.
      * right. auto.
    + intro NN. inversion NN as [|? ? N1 N2]; subst. simpl in N1. unfold bright_points. simpl.
      apply Permutation_app; [|apply B; auto]. unfold bright_of, mkpts. apply Permutation_map.
      rewrite (numeric_nonneg_perm En inner P K1 C1 N1 Se). apply filter_perm. auto.
    + intro H2. inversion H2 as [|? ? L1 L2]; subst. simpl in L1. rewrite map_app.
      simpl. rewrite (A L2). unfold mkpts. rewrite map_map. simpl.
      pose proof (Permutation_length P) as PL. destruct En as [|? [|? [|? ?]]]; simpl in *; try lia.
      reflexivity.
    + exists (d0 :: darks). split; [|split].
      * constructor; auto. exists z. auto.
      * simpl. f_equal. auto.
      * simpl. f_equal. auto.
Qed.

Lemma well_keyed_sub {V} (D data : dict pyfloat (dict pyfloat V)) :
  Permutation D data -> well_keyed data -> Forall (fun e => numeric_keys (snd e)) D.
Proof. intros P (_ & K). eapply Permutation_Forall; [apply Permutation_sym|]; eauto. Qed.

Lemma bright_points_perm {V} (a b : dict pyfloat (dict pyfloat V)) :
  Permutation a b -> Permutation (bright_points a) (bright_points b).
Proof. apply Permutation_flat_map. Qed.

Lemma map_pt_row n pts :
  map (fun x => fst (fst x)) (map (pt_row n) pts) = map (fun x => pt_p x) pts /\
  map (fun x => snd (fst x)) (map (pt_row n) pts) = map (fun x => td_mean n (pt_d x)) pts /\
  map (fun x => snd x) (map (pt_row n) pts) = map (fun x => td_s2 n (pt_d x)) pts.
Proof. rewrite !map_map. auto. Qed.

(** Everything known about an accepted temporal data set. *)
Lemma temporal_shape n data T :
  well_keyed data -> get_temporal n data = Ok T ->
  exists D pts darks,
    Permutation D data /\ StronglySorted (fun a b => flt (fst a) (fst b) = true) D /\
    StronglySorted point_lt pts /\
    length pts + length D = length (flat_map snd D) /\
    (forall x, In x pts -> In (pt_t x) (map fst D)) /\
    (nonneg_photons data -> Permutation pts (bright_points data)) /\
    (Forall (fun e => length (snd e) = 2) data -> map (fun x => pt_t x) pts = map fst D) /\
    Forall (fun e => complete (snd e)) data /\
    Forall2 (fun e d => exists z, In (z, d) (snd e) /\ is_dark z) D darks /\
    tp_up T = map (fun x => pt_p x) pts /\
    tp_uy T = map (fun x => td_mean n (pt_d x)) pts /\
    tp_s2y T = map (fun x => td_s2 n (pt_d x)) pts /\
    (length data <> 1 -> tp_texp T = map fst D /\
       tp_uydark T = map (td_mean n) darks /\ tp_s2ydark T = map (td_s2 n) darks) /\
    (length data = 1 -> exists t inner d, D = [(t, inner)] /\ darks = [d] /\
       tp_texp T = repeat t (length pts) /\
       tp_uydark T = repeat (td_mean n d) (length pts) /\
       tp_s2ydark T = repeat (td_s2 n d) (length pts)).
Proof.
  intros K H. destruct (temporal_outcome n data K) as [(C & D & rows & P & S & R & E)|(_ & E)].
  2:{ congruence. }
  rewrite H in E. injection E as ->.
  pose proof (well_keyed_sub D data P K) as KD.
  assert (CD : Forall (fun e => complete (snd e)) D)
    by (eapply Permutation_Forall; [apply Permutation_sym|]; eauto).
  destruct (points_of_rows n D rows R KD CD S) as (pts & E & Sp & L & T & B & A & darks & Fd & M1 & M2).
  exists D, pts, darks. split; auto. split; auto. split; auto. split; auto. split; auto.
  split; [|split; [|split; [|split]]]; auto.
  - intro NN. apply Permutation_trans with (bright_points D).
    + apply B. unfold nonneg_photons in *. eapply Permutation_Forall; [apply Permutation_sym|]; eauto.
    + apply bright_points_perm. auto.
  - intro H2. apply A. eapply Permutation_Forall; [apply Permutation_sym|]; eauto.
  - unfold temporal_of. rewrite E, map_length, M1, M2.
    destruct (map_pt_row n pts) as (E1 & E2 & E3). rewrite E1, E2, E3.
    rewrite (Permutation_length P). destruct (length data =? 1) eqn:L1; simpl.
    + apply Nat.eqb_eq in L1. split; auto. split; auto. split; auto. split; [lia|]. intros _.
      rewrite <- (Permutation_length P) in L1. destruct D as [|(t & inner) [|? ?]]; simpl in L1; try lia.
      inversion Fd as [|? d ? ds Hd Fn]; subst. inversion Fn; subst.
      exists t, inner, d. simpl. rewrite map_length. auto 8.
    + apply Nat.eqb_neq in L1. split; auto. split; auto. split; auto. split; [auto|]. lia.
Qed.

(** C17 *)
Lemma dark_at_perm {V} (D data : dict pyfloat (dict pyfloat V)) e d :
  Permutation D data -> In e D -> (exists z, In (z, d) (snd e) /\ is_dark z) -> dark_at data (fst e) d.
Proof.
  intros P He (z & Hz & F). exists (snd e), z. split; auto.
  eapply Permutation_in; [exact P|]. destruct e. auto.
Qed.

Lemma sorted_and_aligned n data T :
  well_keyed data -> nonneg_photons data -> get_temporal n data = Ok T ->
  exists pts, Permutation pts (bright_points data) /\ StronglySorted point_lt pts /\
    tp_up T = map (fun x => pt_p x) pts /\
    tp_uy T = map (fun x => td_mean n (pt_d x)) pts /\
    tp_s2y T = map (fun x => td_s2 n (pt_d x)) pts.
Proof.
  intros K NN H. destruct (temporal_shape n data T K H)
    as (D & pts & darks & P & S & Sp & L & _ & B & _ & _ & _ & E1 & E2 & E3 & _).
  exists pts. auto.
Qed.

Lemma exposures_sorted n data T :
  well_keyed data -> get_temporal n data = Ok T -> length data <> 1 ->
  Permutation (tp_texp T) (map fst data) /\
  StronglySorted (fun a b => flt a b = true) (tp_texp T) /\
  exists darks, Forall2 (dark_at data) (tp_texp T) darks /\
    tp_uydark T = map (td_mean n) darks /\ tp_s2ydark T = map (td_s2 n) darks.
Proof.
  intros K H N. destruct (temporal_shape n data T K H)
    as (D & pts & darks & P & S & Sp & L & _ & B & _ & _ & Fd & _ & _ & _ & M & _).
  destruct (M N) as (-> & -> & ->). split; [apply Permutation_map; auto|]. split.
  - apply ssorted_map. auto.
  - exists darks. split; auto.
    assert (Q : forall e, In e D -> In e D) by auto. revert Q. generalize D at 2 as D0.
    revert P Fd. intros P Fd D0 Q.
    assert (forall e d, In e D -> (exists z, In (z, d) (snd e) /\ is_dark z) -> dark_at data (fst e) d)
      by (intros; eapply dark_at_perm; eauto).
    clear - Fd H0. induction Fd; simpl; constructor; auto.
    + apply H0; simpl; auto.
    + apply IHFd. intros. apply H0; simpl; auto.
Qed.

(** C18 *)
Lemma flat_length_two {V} (D : dict pyfloat (dict pyfloat V)) :
  Forall (fun e => complete (snd e)) D ->
  length D + length D <= length (flat_map snd D) /\
  (length (flat_map snd D) = length D + length D <-> Forall (fun e => length (snd e) = 2) D).
Proof.
  induction 1 as [|e D (_ & C) F IH]; simpl.
  - split; [lia|]. split; auto.
  - rewrite app_length. destruct IH as (I1 & I2). unfold dict in *. split; [lia|]. split.
    + intro E. constructor; [lia|]. apply I2. lia.
    + intro G. inversion G; subst. apply I2 in H2. lia.
Qed.

Lemma Forall2_length' {A B} (R : A -> B -> Prop) l l' : Forall2 R l l' -> length l = length l'.
Proof. induction 1; simpl; congruence. Qed.

Lemma equal_lengths_iff n data T :
  well_keyed data -> get_temporal n data = Ok T ->
  length (tp_uy T) = length (tp_up T) /\ length (tp_s2y T) = length (tp_up T) /\
  ((length (tp_texp T) = length (tp_up T) /\ length (tp_uydark T) = length (tp_up T) /\
    length (tp_s2ydark T) = length (tp_up T)) <->
   (length data = 1 \/ Forall (fun e => length (snd e) = 2) data)).
Proof.
  intros K H. destruct (temporal_shape n data T K H)
    as (D & pts & darks & P & S & Sp & L & _ & _ & A & C & Fd & E1 & E2 & E3 & M & O).
  rewrite E1, E2, E3, !map_length. split; auto. split; auto.
  assert (CD : Forall (fun e => complete (snd e)) D)
    by (eapply Permutation_Forall; [apply Permutation_sym|]; eauto).
  destruct (flat_length_two D CD) as (F1 & F2).
  destruct (Nat.eq_dec (length data) 1) as [L1|L1].
  - destruct (O L1) as (t & inner & d & _ & _ & -> & -> & ->). rewrite !repeat_length. split; auto.
  - destruct (M L1) as (-> & -> & ->). rewrite !map_length, <- (Forall2_length' _ _ _ Fd). split.
    + intros (G & _). right. eapply Permutation_Forall; [exact P|]. apply F2.
      unfold dict in *. lia.
    + intros [G|G]; [contradiction|]. apply (Permutation_Forall (Permutation_sym P)) in G.
      apply F2 in G. unfold dict in *. repeat split; lia.
Qed.

Lemma dark_aligned n data T :
  well_keyed data -> nonneg_photons data -> get_temporal n data = Ok T ->
  length data = 1 \/ Forall (fun e => length (snd e) = 2) data ->
  exists pts darks, Permutation pts (bright_points data) /\ StronglySorted point_lt pts /\
    tp_texp T = map (fun x => pt_t x) pts /\
    tp_up T = map (fun x => pt_p x) pts /\
    tp_uy T = map (fun x => td_mean n (pt_d x)) pts /\
    tp_s2y T = map (fun x => td_s2 n (pt_d x)) pts /\
    Forall2 (fun x d => dark_at data (pt_t x) d) pts darks /\
    tp_uydark T = map (td_mean n) darks /\ tp_s2ydark T = map (td_s2 n) darks.
Proof.
  intros K NN H Q. destruct (temporal_shape n data T K H)
    as (D & pts & darks & P & S & Sp & L & T1 & B & A & C & Fd & E1 & E2 & E3 & M & O).
  destruct (Nat.eq_dec (length data) 1) as [L1|L1].
  - destruct (O L1) as (t & inner & d & -> & -> & X1 & X2 & X3).
    exists pts, (repeat d (length pts)). rewrite X1, X2, X3.
    split; auto. split; auto. split; [|split; [|split; [|split; [|split; [|split]]]]]; auto.
    + clear - T1. induction pts as [|x pts IH]; simpl; auto. f_equal.
      * destruct (T1 x (or_introl eq_refl)) as [E|[]]. auto.
      * apply IH. intros y Hy. apply T1. right. auto.
    + inversion Fd as [|? ? ? ? Hd]; subst. 
      assert (G : dark_at data t d) by (eapply (dark_at_perm _ _ (t, inner)); eauto; left; auto).
      clear - T1 G. induction pts as [|x pts IH]; simpl; constructor.
      * destruct (T1 x (or_introl eq_refl)) as [E|[]]. simpl in E. rewrite <- E. auto.
      * apply IH. intros y Hy. apply T1. right. auto.
    + clear. induction (length pts); simpl; congruence.
    + clear. induction (length pts); simpl; congruence.
  - destruct Q as [Q|Q]; [contradiction|]. destruct (M L1) as (X1 & X2 & X3).
    exists pts, darks. rewrite X1, X2, X3, <- (A Q).
    split; auto. split; auto. split; [|split; [|split; [|split; [|split; [|split]]]]]; auto.
    assert (G : forall e d, In e D -> (exists z, In (z, d) (snd e) /\ is_dark z) -> dark_at data (fst e) d)
      by (intros; eapply dark_at_perm; eauto).
    specialize (A Q). clear - Fd G A. revert pts A. induction Fd as [|e d D ds He Fd IH]; intros pts A.
    + destruct pts; [constructor|discriminate].
    + destruct pts as [|x pts]; [discriminate|]. simpl in A. injection A as A1 A2. constructor.
      * rewrite A1. apply G; simpl; auto.
      * apply IH; auto. intros. apply G; simpl; auto.
Qed.

(** C20 *)
Lemma bright_not_dark {V} (data : dict pyfloat (dict pyfloat V)) x :
  In x (bright_points data) -> ~ is_dark (pt_p x).
Proof.
  unfold bright_points. intro H. apply in_flat_map in H. destruct H as (e & _ & H).
  unfold bright_of in H. apply in_map_iff in H. destruct H as (y & <- & H).
  apply filter_In in H. destruct H as (_ & H). simpl. unfold is_dark.
  apply negb_true_iff in H. congruence.
Qed.

Lemma no_dark_in_bright n data T :
  well_keyed data -> nonneg_photons data -> get_temporal n data = Ok T ->
  Forall (fun p => ~ is_dark p) (tp_up T) /\
  Permutation (tp_up T) (map (fun x => pt_p x) (bright_points data)).
Proof.
  intros K NN H. destruct (sorted_and_aligned n data T K NN H) as (pts & P & _ & -> & _).
  split; [|apply Permutation_map; auto]. apply Forall_map, Forall_forall. intros x Hx.
  apply (bright_not_dark data). eapply Permutation_in; eauto.
Qed.
