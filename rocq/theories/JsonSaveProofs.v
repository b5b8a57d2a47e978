(* JsonSaveProofs.v - the file NetUtil::save writes *)
From Coq Require Import Decimal DecimalString DecimalFacts DecimalZ DecimalPos String List Arith Bool Ascii Lia ZArith.
From Verif Require Import Base Scalar Mat SpecMat Act LayMat LayImg LayRnn Loss Optim Regul Layer Net NetTrain SpecText SpecJson SpecSave Json JsonProofs JsonSave.
Import ListNotations.
Local Open Scope nat_scope.

(** * integers and names *)
Lemma uintDigits : forall d, Forall digitC (lit (NilEmpty.string_of_uint d)).
Proof. induction d; cbn; constructor; auto; unfold digitC; cbn; tauto. Qed.
Lemma to_uint_head : forall p u, Pos.to_uint p <> D0 u.
Proof.
  intros p u E. pose proof (Unsigned.to_of (Pos.to_uint p)) as H. rewrite Unsigned.of_to in H. cbn [N.to_uint] in H.
  unfold unorm in H. pose proof (nzhead_nonzero (Pos.to_uint p)) as Z. destruct (nzhead (Pos.to_uint p)) eqn:E1; try (rewrite H in E; discriminate).
  - apply (Unsigned.to_uint_nonzero p). auto.
  - apply (Z u0). auto.
Qed.
Lemma showInt_number : forall z, jnumber (showInt z).
Proof.
  intro z. unfold showInt, NilZero.string_of_int.
  assert (G : forall p, exists c d, lit (NilZero.string_of_uint (Pos.to_uint p)) = c :: d /\ digitC c /\ c <> "0"%char /\ Forall digitC d).
  { intro p. pose proof (Unsigned.to_uint_nonnil p) as N. pose proof (to_uint_head p) as H. destruct (Pos.to_uint p) as [|u|u|u|u|u|u|u|u|u|u]; try congruence; try (exfalso; apply (H u); reflexivity);
      (eexists; eexists; split; [cbn; reflexivity|split; [unfold digitC; cbn; tauto|split; [discriminate|apply uintDigits]]]). }
  destruct z as [|p|p]; cbn [Z.to_int].
  - exists [], ["0"%char], [], []. repeat split; auto.
  - destruct (G p) as (c & d & E & H1 & H2 & H3). rewrite E. exists [], (c :: d), [], []. cbn [app]. rewrite app_nil_r. split; auto. split; auto. split; [right; exists c, d; auto|]. auto.
  - destruct (G p) as (c0 & d0 & E0 & K1 & K2 & K3). exists ["-"%char], (c0 :: d0), [], []. rewrite !app_nil_r. split; [cbn [lit list_ascii_of_string]; fold lit; unfold lit in E0 |- *; cbn; rewrite E0; reflexivity|]. split; auto. split; [right; exists c0, d0; auto|]. auto.
Qed.
Definition cleanB (s : text) : bool := forallb (fun c => (32 <=? nat_of_ascii c) && negb (Ascii.eqb c quote) && negb (Ascii.eqb c backslash)) s.
Lemma cleanB_ok : forall s, cleanB s = true -> Forall cleanC s.
Proof.
  intros s H. apply Forall_forall. intros c Hc. unfold cleanB in H. rewrite forallb_forall in H. specialize (H c Hc). apply andb_prop in H. destruct H as [H H3]. apply andb_prop in H. destruct H as [H1 H2].
  apply Nat.leb_le in H1. apply negb_true_iff in H2, H3. split; auto. split; intros ->; discriminate.
Qed.
Lemma digit_clean : forall c, digitC c -> cleanC c.
Proof. intros c H. apply hex_clean. left. auto. Qed.
Lemma showInt_clean : forall z, Forall cleanC (showInt z).
Proof.
  intro z. assert (D : forall d, d <> Nil -> Forall cleanC (lit (NilZero.string_of_uint d))) by (intros d N; eapply Forall_impl; [intros c; apply digit_clean|]; destruct d; try congruence; apply (uintDigits _)).
  unfold showInt, NilZero.string_of_int. destruct z as [|p|p]; cbn [Z.to_int].
  - apply cleanB_ok. reflexivity.
  - apply D. apply Unsigned.to_uint_nonnil.
  - cbn [lit list_ascii_of_string]. constructor; [|apply D; apply Unsigned.to_uint_nonnil]. apply (Forall_inv (cleanB_ok ["-"%char] eq_refl)).
Qed.
Lemma loss_clean : forall k, Forall cleanC (lit (loss_name k)).
Proof. intros []; apply cleanB_ok; reflexivity. Qed.
Lemma reg_clean : forall k, Forall cleanC (lit (reg_name k)).
Proof. intros []; apply cleanB_ok; reflexivity. Qed.
Lemma act_clean : forall k, Forall cleanC (lit (act_name k)).
Proof. intros []; apply cleanB_ok; reflexivity. Qed.

Section Save.
Variable F : FOps.
Variable dotCast : res unit.
Variable showF : F -> text.
Notation call := (call Z F).
Notation item := (item Z F).
Notation meaning := (meaning Z F showInt showF).
Notation clean := (cleanItem Z F showInt showF).
Notation num x := (JNum (showF x)).

Lemma type_clean : forall k : kind F, Forall cleanC (lit (typeOf F k)).
Proof. intros k. destruct k as [| | | | | | | | |[a|]| | | | | | | | | | | | | | | | | | | | | | | |]; try (apply cleanB_ok; reflexivity). apply act_clean. Qed.
(* the type of an activation layer is none of the types that are cast to *)
Theorem cast_sound : forall a, ~ In (act_name a) ["Dense"; "Dot"; "ChannelBias"; "Dropout"; "RRelu"; "GaussianNoise"; "UniformNoise"; "MaxPool2D"; "GlobalMaxPool2D"; "Convolution2D"; "TimeDistributedBias"; "TimeDistributedDot"; "TimeDistributedDense"]%string.
Proof. intros [] H; cbn in H; repeat destruct H as [H|H]; try discriminate H; auto. Qed.

(* calls that add one value *)
Definition leaf (c : call) : item :=
  match c with AddS k v => IStr _ _ k v | AddI k i => IInt _ _ k i | AddF k x => IFlt _ _ k x | AddB k b => IBool _ _ k b | AddA k xs => IArr _ _ k xs | _ => IBool _ _ [] true end.
Definition isLeaf (c : call) : Prop := match c with Enter _ | Leave => False | _ => True end.
Lemma calls_leaves : forall cs, Forall isLeaf cs -> flat_map (calls Z F) (map leaf cs) = cs.
Proof. induction 1 as [|c cs Hc H IH]; auto. cbn [map flat_map]. rewrite IH. destruct c; try contradiction; reflexivity. Qed.
Definition section (k : text) (cs : list call) : item := ISec _ _ k (map leaf cs).
Lemma calls_section : forall k cs, Forall isLeaf cs -> calls Z F (section k cs) = Enter k :: cs ++ [Leave].
Proof. intros k cs H. unfold section. cbn [calls]. rewrite calls_leaves by auto. reflexivity. Qed.
Lemma clean_section : forall k cs, Forall cleanC k -> Forall (fun c => clean (leaf c)) cs -> clean (section k cs).
Proof. intros k cs Hk H. split; auto. clear Hk k. induction H; cbn; auto. Qed.

(* what must hold of a layer *)
Definition layerOk (l : layer F) : Prop :=
  (isDot (lk l) = true -> dotCast = Ok tt) /\
  (msize (lw l) <> 0 -> Forall cleanC (lit (lwi l)) /\ Forall (fun x => jnumber (showF x)) (mdata (lw l))) /\
  (msize (lb l) <> 0 -> Forall cleanC (lit (lbi l)) /\ Forall (fun x => jnumber (showF x)) (mdata (lb l))) /\
  (forall s x, In (s, x) (savedFloats (lk l)) -> jnumber (showF x)).
Definition trainerOk (t : trainer F) : Prop :=
  Forall cleanC (lit (cOpt F (tc F t))) /\ jnumber (showF (trGetLr F t)) /\ jnumber (showF (cDecay F (tc F t))) /\ jnumber (showF (cMom F (tc F t))) /\
  (cReg F (tc F t) <> None -> jnumber (showF (trGetRegParam F t))).
(* what the file says about a layer *)
Definition describes (l : layer F) (fields : list (text * json)) : Prop :=
  nth_error fields 0 = Some (lit "Type", JStr (lit (typeOf F (lk l)))) /\
  (msize (lw l) <> 0 -> In (lit "Weight_0", JArr (map (fun x => num x) (mdata (lw l)))) fields /\ In (lit "WeightInitializer", JStr (lit (lwi l))) fields) /\
  (msize (lb l) <> 0 -> In (lit "Bias_0", JArr (map (fun x => num x) (mdata (lb l)))) fields /\ In (lit "BiasInitializer", JStr (lit (lbi l))) fields) /\
  (forall s v, In (s, v) (savedInts (lk l)) -> In (lit s, JNum (showInt (Z.of_nat v))) fields) /\
  (forall s x, In (s, x) (savedFloats (lk l)) -> In (lit s, num x) fields).

(* the calls made between entering and leaving the layer's section, and their meaning *)
Definition leaves (l : layer F) (c : list call) : list call :=
  AddS (lit "Type") (lit (typeOf F (lk l))) :: (if hasWeights l then [AddS (lit "WeightInitializer") (lit (lwi l)); AddA (lit "Weight_0") (mdata (lw l))] else [])
      ++ (if hasBiases l then [AddS (lit "BiasInitializer") (lit (lbi l)); AddA (lit "Bias_0") (mdata (lb l))] else []) ++ c.
Definition fields (l : layer F) : list (text * json) := match saveKind F (Ok tt) (lk l) with Ok c => map (fun c => meaning (leaf c)) (leaves l c) | Err _ => [] end.
Definition layerKey (i : nat) : text := lit "Layer_" ++ showInt (Z.of_nat i).
Lemma saveLayer_ok : forall i l, layerOk l -> exists cs, saveLayer F dotCast i l = Ok (calls Z F (section (layerKey i) cs)) /\ clean (section (layerKey i) cs) /\ describes l (map (fun c => meaning (leaf c)) cs) /\ map (fun c => meaning (leaf c)) cs = fields l.
Proof.
  intros i l (Hd & Hw & Hb & Hf). unfold saveLayer.
  assert (K : exists c, saveKind F dotCast (lk l) = Ok c /\ saveKind F (Ok tt) (lk l) = Ok c /\ Forall isLeaf c /\ Forall (fun c => clean (leaf c)) c /\
    (forall s v, In (s, v) (savedInts (lk l)) -> In (lit s, JNum (showInt (Z.of_nat v))) (map (fun c => meaning (leaf c)) c)) /\ (forall s x, In (s, x) (savedFloats (lk l)) -> In (lit s, num x) (map (fun c => meaning (leaf c)) c))).
  { assert (CI : forall s n, Forall cleanC (lit s) -> clean (leaf (addI F s n))) by (intros s n Hs; split; [auto|apply showInt_number]).
    assert (CF : forall s x, In (s, x) (savedFloats (lk l)) -> Forall cleanC (lit s) -> clean (leaf (AddF (lit s) x))) by (intros s x Hs Hc; split; auto; apply (Hf s); auto).
    assert (LN : Forall isLeaf []) by constructor. assert (LC : forall c cs, isLeaf c -> Forall isLeaf cs -> Forall isLeaf (c :: cs)) by (intros; constructor; auto).
    destruct (lk l); cbn [saveKind savedInts savedFloats] in *; try (rewrite (Hd eq_refl); cbn [bind]);
      (eexists; split; [reflexivity|]; split; [reflexivity|]; split; [repeat (apply LC; [exact I|]); exact LN|]; split; [repeat (apply Forall_cons; [first [apply CI; apply cleanB_ok; reflexivity|apply CF; [cbn; tauto|apply cleanB_ok; reflexivity]]|]); apply Forall_nil|]);
      (split; intros ?s ?v Hin; cbn in Hin; repeat (destruct Hin as [Hin|Hin]; [injection Hin as <- <-; cbn [map In]; repeat (first [left; reflexivity|right])|]); destruct Hin). }
  destruct K as (c & -> & Kc & Lc & Cc & Ic & Fc). cbn [bind].
  exists (AddS (lit "Type") (lit (typeOf F (lk l))) :: (if hasWeights l then [AddS (lit "WeightInitializer") (lit (lwi l)); AddA (lit "Weight_0") (mdata (lw l))] else [])
      ++ (if hasBiases l then [AddS (lit "BiasInitializer") (lit (lbi l)); AddA (lit "Bias_0") (mdata (lb l))] else []) ++ c).
  assert (CK : forall s, cleanB (lit s) = true -> Forall cleanC (lit s)) by (intros; apply cleanB_ok; auto).
  split; [|split; [|split]]; [| | |unfold fields, leaves; rewrite Kc; reflexivity]; unfold hasWeights, hasBiases in *.
  - rewrite calls_section.
    + cbn [app]. rewrite <- !app_assoc. reflexivity.
    + constructor; [exact I|]. apply Forall_app. split; [destruct (_ =? _); repeat constructor|]. apply Forall_app. split; auto. destruct (_ =? _); repeat constructor.
  - apply clean_section; [apply Forall_app; split; [apply CK; reflexivity|apply showInt_clean]|].
    constructor; [split; [apply CK; reflexivity|apply type_clean]|]. apply Forall_app. split.
    + destruct (Nat.eqb_spec (msize (lw l)) 0) as [Z|Z]; cbn [negb]; [constructor|]. destruct (Hw Z). constructor; [split; [apply CK; reflexivity|auto]|]. constructor; [split; [apply CK; reflexivity|auto]|constructor].
    + apply Forall_app. split; auto. destruct (Nat.eqb_spec (msize (lb l)) 0) as [Z|Z]; cbn [negb]; [constructor|]. destruct (Hb Z). constructor; [split; [apply CK; reflexivity|auto]|]. constructor; [split; [apply CK; reflexivity|auto]|constructor].
  - set (g := fun c => meaning (leaf c)). split; [reflexivity|]. cbn [map]. rewrite !map_app.
    split; [|split; [|split]].
    + intro Z. destruct (Nat.eqb_spec (msize (lw l)) 0); [contradiction|]. cbn [negb map app]. split; right; cbn; auto.
    + intro Z. destruct (Nat.eqb_spec (msize (lb l)) 0); [contradiction|]. cbn [negb map app]. split; right; apply in_or_app; right; unfold g; cbn; auto.
    + intros s v Hin. right. apply in_or_app. right. apply in_or_app. right. apply Ic. auto.
    + intros s v Hin. right. apply in_or_app. right. apply in_or_app. right. apply Fc. auto.
Qed.

Definition layersOf (h : heap F) (n : net) (ls : list (layer F)) : Prop := Forall2 (fun a l => hget F h a = Ok l) (nlay n) ls.
Theorem saved_file_full : forall h n t ls, layersOf h n ls -> Forall layerOk ls -> trainerOk t -> exists text ms opt, opt = map (fun c => meaning (leaf c)) (saveTrain F t) /\
  save F dotCast showF h n t = Ok text /\ jvalue text (JObj ms) /\ length ms = 4 + length ls /\
  nth_error ms 0 = Some (lit "Engine", JStr (lit "BeeDNN")) /\ nth_error ms 1 = Some (lit "Problem", JStr (lit (if nclass n then "Classification" else "Regression"))) /\
  nth_error ms 2 = Some (lit "Optimizer", JObj opt) /\ nth_error ms 3 = Some (lit "NbLayers", JNum (showInt (Z.of_nat (length ls)))) /\
  In (lit "Optimizer", JStr (lit (cOpt F (tc F t)))) opt /\ In (lit "LearningRate", num (trGetLr F t)) opt /\ In (lit "Epochs", JNum (showInt (cEpochs F (tc F t)))) opt /\
  In (lit "Decay", num (cDecay F (tc F t))) opt /\ In (lit "Momentum", num (cMom F (tc F t))) opt /\ In (lit "Patience", JNum (showInt (cPatience F (tc F t)))) opt /\
  In (lit "BatchSize", JNum (showInt (Z.of_nat (cBatch F (tc F t))))) opt /\ In (lit "Loss", JStr (lit (loss_name (cLoss F (tc F t))))) opt /\
  In (lit "KeepBest", if cKeep F (tc F t) then JTrue else JFalse) opt /\ In (lit "ReboostEveryEpochs", JNum (showInt (cReboost F (tc F t)))) opt /\
  In (lit "ClassBalancingWeightLoss", if cBalancing F (tc F t) then JTrue else JFalse) opt /\
  (forall r, cReg F (tc F t) = Some r -> In (lit "Regularizer", JStr (lit (reg_name (rkind F r)))) opt /\ In (lit "RegularizerParameter", num (rparam F r)) opt) /\
  forall i l, nth_error ls i = Some l -> nth_error ms (4 + i) = Some (layerKey i, JObj (fields l)) /\ describes l (fields l).
Proof.
  intros h n t ls Hls Hok (To & Tl & Td & Tm & Tr).
  assert (CK : forall s, cleanB (lit s) = true -> Forall cleanC (lit s)) by (intros; apply cleanB_ok; auto).
  (* the layers *)
  assert (L : forall as_ ls s acc, Forall2 (fun a l => hget F h a = Ok l) as_ ls -> Forall layerOk ls -> exists its,
    forL (combine (seq s (length as_)) as_) (fun '(i, a) acc => l <- hget F h a ;; c <- saveLayer F dotCast i l ;; Ok (acc ++ c)) acc = Ok (acc ++ flat_map (calls Z F) its) /\
    Forall clean its /\ length its = length ls /\ forall i l, nth_error ls i = Some l -> nth_error (map meaning its) i = Some (layerKey (s + i), JObj (fields l)) /\ describes l (fields l)).
  { clear Hls Hok ls. intros as_ ls s acc H. revert s acc. induction H as [|a l as_ ls Ha H IH]; intros s acc Hok.
    - exists []. cbn. rewrite app_nil_r. split; auto. split; auto. split; auto. intros [|i] l Hl; discriminate.
    - inversion Hok; subst. cbn [length seq combine forL]. rewrite Ha. cbn [bind]. destruct (saveLayer_ok s l H2) as (cs & E & C & D & Df). rewrite E. cbn [bind]. rewrite Df in D.
      destruct (IH (S s) (acc ++ calls Z F (section (layerKey s) cs)) H3) as (its & E2 & C2 & L2 & D2). exists (section (layerKey s) cs :: its). rewrite E2. split; [cbn [flat_map]; rewrite <- app_assoc; reflexivity|]. split; auto. split; [cbn; auto|].
      intros [|i] l' Hl; cbn [nth_error] in Hl.
      + injection Hl as <-. split; [|exact D]. cbn [map nth_error]. rewrite Nat.add_0_r. unfold section at 1. cbn [SpecJson.meaning]. rewrite map_map, Df. reflexivity.
      + destruct (D2 i l' Hl) as (E3 & D3). split; auto. replace (s + S i) with (S s + i) by lia. exact E3. }
  destruct (L (nlay n) ls 0 [] Hls Hok) as (its & E & Ci & Li & Di).
  assert (Ln : length (nlay n) = length ls) by (clear - Hls; unfold layersOf in Hls; induction Hls; cbn; auto).
  (* the training settings *)
  assert (Tleaf : Forall isLeaf (saveTrain F t)) by (unfold saveTrain; apply Forall_app; split; [repeat constructor|destruct (_ =? _)%string; repeat constructor]).
  assert (Treg : (trGetReg F t =? "")%string = false -> exists r, cReg F (tc F t) = Some r) by (unfold trGetReg; destruct (cReg F (tc F t)); [eauto|discriminate]).
  assert (Tclean : Forall (fun c => clean (leaf c)) (saveTrain F t)).
  { unfold saveTrain. cbv zeta. apply Forall_app. split.
    - repeat (apply Forall_cons; [first [exact (CK "KeepBest"%string eq_refl)|exact (CK "ClassBalancingWeightLoss"%string eq_refl)|split; [apply CK; reflexivity|first [apply showInt_number|assumption|apply loss_clean]]]|]). constructor.
    - destruct (_ =? _)%string eqn:Er; [constructor|]. destruct (Treg eq_refl) as (r & Hr). repeat (apply Forall_cons; [split; [apply CK; reflexivity|]|]).
      + unfold trGetReg. rewrite Hr. apply reg_clean.
      + apply Tr. congruence.
      + constructor. }
  set (items := [leaf (AddS (lit "Engine") (lit "BeeDNN")); leaf (AddS (lit "Problem") (lit (if nclass n then "Classification" else "Regression"))); section (lit "Optimizer") (saveTrain F t); leaf (addI F "NbLayers" (length (nlay n)))] ++ its).
  assert (Es : saveCalls F dotCast h n t = Ok (flat_map (calls Z F) items)).
  { unfold saveCalls. rewrite E. cbn [bind]. unfold items. rewrite flat_map_app. cbn [flat_map leaf calls addI]. rewrite calls_section by auto. cbn [app]. rewrite ?app_nil_r, <- ?app_assoc. reflexivity. }
  assert (Cl : Forall clean items).
  { unfold items. apply Forall_app. split; auto. apply Forall_cons; [split; apply CK; reflexivity|]. apply Forall_cons; [split; [apply CK; reflexivity|destruct (nclass n); apply CK; reflexivity]|].
    apply Forall_cons; [apply clean_section; auto; apply CK; reflexivity|]. apply Forall_cons; [split; [apply CK; reflexivity|apply showInt_number]|]. apply Forall_nil. }
  destruct (written_json Z F showInt showF items Cl) as (j & Ej & _ & _ & Hj).
  exists (jText j), (map meaning items), (map (fun c => meaning (leaf c)) (saveTrain F t)). split; [reflexivity|].
  split; [unfold save; rewrite Es; cbn [bind]; rewrite Ej; reflexivity|]. split; auto.
  split; [unfold items; rewrite map_length, app_length, Li; reflexivity|].
  split; [reflexivity|]. split; [reflexivity|]. split; [unfold items, section; cbn [app map nth_error SpecJson.meaning]; rewrite map_map; reflexivity|]. split; [rewrite <- Ln; reflexivity|].
  unfold saveTrain. cbv zeta. rewrite map_app.
  repeat (split; [apply in_or_app; left; cbn; tauto|]).
  split.
  - intros r Hr. assert (Er : (trGetReg F t =? "")%string = false) by (unfold trGetReg; rewrite Hr; destruct (rkind F r); reflexivity). rewrite Er. unfold trGetReg, trGetRegParam. rewrite Hr. split; apply in_or_app; right; cbn; tauto.
  - intros i l Hl. exact (Di i l Hl).
Qed.
Theorem saved_file : forall h n t ls, layersOf h n ls -> Forall layerOk ls -> trainerOk t -> exists text ms opt,
  save F dotCast showF h n t = Ok text /\ jvalue text (JObj ms) /\ length ms = 4 + length ls /\
  nth_error ms 0 = Some (lit "Engine", JStr (lit "BeeDNN")) /\ nth_error ms 1 = Some (lit "Problem", JStr (lit (if nclass n then "Classification" else "Regression"))) /\
  nth_error ms 2 = Some (lit "Optimizer", JObj opt) /\ nth_error ms 3 = Some (lit "NbLayers", JNum (showInt (Z.of_nat (length ls)))) /\
  In (lit "Optimizer", JStr (lit (cOpt F (tc F t)))) opt /\ In (lit "LearningRate", num (trGetLr F t)) opt /\ In (lit "Epochs", JNum (showInt (cEpochs F (tc F t)))) opt /\
  In (lit "Decay", num (cDecay F (tc F t))) opt /\ In (lit "Momentum", num (cMom F (tc F t))) opt /\ In (lit "Patience", JNum (showInt (cPatience F (tc F t)))) opt /\
  In (lit "BatchSize", JNum (showInt (Z.of_nat (cBatch F (tc F t))))) opt /\ In (lit "Loss", JStr (lit (loss_name (cLoss F (tc F t))))) opt /\
  In (lit "KeepBest", if cKeep F (tc F t) then JTrue else JFalse) opt /\ In (lit "ReboostEveryEpochs", JNum (showInt (cReboost F (tc F t)))) opt /\
  In (lit "ClassBalancingWeightLoss", if cBalancing F (tc F t) then JTrue else JFalse) opt /\
  (forall r, cReg F (tc F t) = Some r -> In (lit "Regularizer", JStr (lit (reg_name (rkind F r)))) opt /\ In (lit "RegularizerParameter", num (rparam F r)) opt) /\
  forall i l, nth_error ls i = Some l -> exists fs, nth_error ms (4 + i) = Some (layerKey i, JObj fs) /\ describes l fs.
Proof.
  intros h n t ls H1 H2 H3. destruct (saved_file_full h n t ls H1 H2 H3) as (x & ms & opt & _ & A). exists x, ms, opt. repeat (destruct A as (? & A); split; [assumption|]). intros i l Hl. exists (fields l). auto.
Qed.
End Save.
