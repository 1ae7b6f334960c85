(** Vocabulary of the amplitude matching property C77. *)
From Coq Require Import List ZArith QArith Qcanon Bool Arith.
From Verif.Base Require Import Py Num.
Import ListNotations.
Local Open Scope list_scope.
Local Open Scope Z_scope.

(** The amplitudes of the pixels of superpixel [k] in all events, and their mean. *)
Definition sp_amplitudes (amplitude : list (list Qc)) (k : nat) : list Qc :=
  List.concat (map (fun ev => firstn 4 (skipn (4 * k) ev)) amplitude).
Definition sp_mean (amplitude : list (list Qc)) (k : nat) : Qc :=
  (qsum (sp_amplitudes amplitude k) / qn (List.length (sp_amplitudes amplitude k)))%Qc.

(** The squared relative distance to the aim. *)
Definition rel_distance (aim mean : Qc) : Qc := ((mean - aim) * (mean - aim) / (aim * aim))%Qc.

(** The change of DAC that brings the amplitude [mean] closer to [aim] (gain falls with DAC). *)
Definition towards (aim mean : Qc) (step d : Z) : Prop :=
  ((aim < mean)%Qc /\ d = step) \/ ((mean < aim)%Qc /\ d = - step) \/ (mean = aim /\ d = 0).
