(* SpecWatch.v - trainers without observers, and the layers an evaluation leaves unchanged *)
From Coq Require Import List ZArith.
From Verif Require Import Base Scalar Mat LayMat Layer Net Loss NetTrain.

Section Spec.
Variable F : FOps.
(* the trainer before set_epoch_callback / set_validation_data *)
Definition noCallback (t : trainer F) : trainer F :=
  mkTr F (tc F t) (tbal F t) (tadj F t) (tcur F t) (topts F t) (tinOut F t) (tgrad F t) (tnl F t) (tpw F t) (tpb F t) (th F t) (tonl F t) (tgood F t) (ttrain F t) (tval F t) false.
Definition withValidation (v : option (mat F * mat F)) (t : trainer F) : trainer F :=
  mkTr F (tc F t) (tbal F t) (tadj F t) (tcur F t) (topts F t) (tinOut F t) (tgrad F t) (tnl F t) (tpw F t) (tpb F t) (th F t) (tonl F t) (tgood F t) (ttrain F t) v (tcallback F t).
(* a forward pass out of training mode leaves the object as it is: all but the layers filled at the first forward call, the
   convolution and RandomFlip (which store working data), and the recurrent layers *)
Definition unmoved (l : layer F) : Prop :=
  match lk l with
  | KBias | KGain | KAffine | KPRelu | KPELU | KTERELU | KFlip _ _ _ | KConv _ _ | KSimpleRnn _ _ | KSimplestRnn _ => False
  | _ => True
  end.
(* the training part of the results of a run *)
Definition trainPart (t : trainer F) := (hTL F (th F t), hTA F (th F t), fTL F (th F t), fTA F (th F t), topts F t, tc F t).
End Spec.
