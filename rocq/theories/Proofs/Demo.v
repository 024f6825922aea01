(** A concrete history, used to show that the hypotheses of the theorems can be met. *)
From Verif.Proofs Require Export ReachLemmas.

Ltac legal :=
  repeat first
    [ match goal with
      | |- _ /\ _ => split
      | |- Forall _ (_ :: _) => constructor
      | |- Forall _ [] => constructor
      | |- True => exact I
      | |- _ < _ => vm_compute; reflexivity
      | |- _ <= _ => vm_compute; discriminate
      | |- _ = _ => vm_compute; reflexivity
      | |- _ <> _ => vm_compute; discriminate
      end
    | progress (cbn [ok_run ok_op valid_value in_range fst snd])
    | progress (unfold fits, byte_list, fsorted)
    | constructor ].

Definition demo_child : list op := [OScalar 0 KU8 7; OBytes 1 false [1; 2; 3]; OScalar 2 KF32 1069547520].
Definition demo : list op :=
  [OScalar 4 KI64 (-9000000000); OScalar 0 KI16 (-5); OBytes 3 true [104; 105];
   ORecord true; ONested 2 3 demo_child; OBools 5 [true; false; true; true; false; false; false; false; true];
   ORead; OScalar 0 KI16 0; ONums 6 KU16 [1; 65535; 3]; OBlobs 7 true [[97; 98; 99; 100]; [101; 102; 103; 104]];
   OStructs 8 3 [demo_child; []; [OScalar 1 KBool 1]]; OAny 9 (map Z.of_nat (seq 1 16)) 3 demo_child;
   OMap 10 1 2 [1; 0; 0; 0; 5; 0; 0; 0]; OMarshal; OScalar 1 KBool 1; OClear 4; ODrain;
   OScalar 11 KF64 4607182418800017408].
Lemma demo_ok : ok_run 12 0 [] demo.
Proof. unfold demo, demo_child. legal. Qed.
Lemma demo_reached : exists s, build 12 demo = Ok s /\ reached 12 s (sem [] demo).
Proof. apply reached_build, demo_ok. Qed.
