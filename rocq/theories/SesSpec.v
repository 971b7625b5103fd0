From Coq Require Import List Bool.
From Verif Require Import SesModel.
Import ListNotations.

(** The steps that can leave things behind: those between the opening of the terminal and the prompt, and those of the cleaning up *)
Definition setting_up : list act := [SetRaw; StartThread; PrintOpened; OpenW; OpenR; SetStreams; SetThread; PrintGreeting; MakeConsole].
Definition cleaning_up : list act := [PrintClosing; Join; CloseMaster; CloseSlave].
Definition works (faults : act -> option fault) (l : list act) : Prop := forall a, In a l -> faults a = None.
