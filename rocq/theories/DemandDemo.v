(** * DemandDemo: witnesses for Props_Demand and Props_Names. *)
From Verif Require Import Base Types Sim Build Reach Steps Spec Paths Demo Registry.
Local Open Scope string_scope.
Local Open Scope nat_scope.

Definition two_nodes : list op := [ node_ "A"; node_ "B"; link_ "AB" 0 1 100 ].

(** 10 vehicles in (0, 60), every 30 seconds one platoon of 5 *)
Definition demand_test (w : world) : bool :=
  match adddemand cfg0 0 1 0 60 (-1) 10 w with
  | Ok w' => (w_nv w' =? 2) && (v_dep (V w' 0) =? 5)%Z && (v_dep (V w' 1) =? 11)%Z
  | Err _ => false end.
Lemma demand_runs : exists w, reachable cfg0 w /\ demand_test w = true.
Proof. apply (play_witness cfg0 two_nodes None). vm_compute. reflexivity. Qed.

Definition cover_test (w : world) : bool :=
  match exec_simulation cfg1 ToEnd w with
  | Ok (_, w') => negb (w_final w) && (match w_tmax w with None => true | _ => false end) && (w_nv w =? 1) && (w_tsize w' =? 3600)
  | Err _ => false end.
Lemma cover_runs : exists w, reachable cfg1 w /\ cover_test w = true.
Proof. apply (play_witness cfg1 (two_nodes ++ [veh_ 0 1 1000]) None). vm_compute. reflexivity. Qed.

(** a timestep of 4000 s *)
Definition cfg_slow : cfg :=
  mkCfg 5 800 600 (1#2) (1#100) HomogeneousDUO false 1 false false 1 false true 120
        (fun k => 0) (fun k => (1#2)%Q) shortest_paths.
Definition missed_test (w : world) : bool :=
  match exec_simulation cfg_slow ToEnd w with
  | Ok (r, w') => negb (w_final w) && (match w_tmax w with None => true | _ => false end) && (w_nv w =? 1) && (Z.of_nat (w_T w') <=? v_dep (V w 0))%Z && (r =? 1)%Z
  | Err _ => false end.
Lemma missed : exists w, reachable cfg_slow w /\ missed_test w = true.
Proof. apply (play_witness cfg_slow (two_nodes ++ [veh_ 0 1 1]) None). vm_compute. reflexivity. Qed.

Definition at_second (t : Q) : veh_args := mkVehArgs None 0 (Some 1) (DepSec t) None SingleTrip None [] [] true.
Definition second_test (w : world) : bool :=
  match add_vehicle cfg0 (at_second 300) w with
  | Ok w' => qeq (v_depsec (V w' (w_nv w))) 1500
  | Err _ => false end.
Lemma second_wrong : exists w, reachable cfg0 w /\ second_test w = true.
Proof. apply (play_witness cfg0 two_nodes None). vm_compute. reflexivity. Qed.

(** a vehicle named "1" takes the automatic name of the second vehicle *)
Definition named_veh (s : string) : op := OAddVehicle (mkVehArgs (Some s) 0 (Some 1) (DepStep 0) None SingleTrip None [] [] true).
Definition clash_test (w : world) : bool :=
  match apply_op cfg0 (veh_ 0 1 0) w with Err ValueError => w_nv w =? 1 | _ => false end.
Lemma clash : exists w, reachable cfg0 w /\ clash_test w = true.
Proof. apply (play_witness cfg0 (two_nodes ++ [named_veh "1"]) None). vm_compute. reflexivity. Qed.

Definition names_test (w : world) : bool :=
  match get_node w (KName "B"), get_link w (KName "AB"), get_node w (KName "C"), add_node cfg0 (mkNodeArgs "A" 0 0 [0%Q] 0 None None None) w with
  | Ok (Some 1), Ok (Some 0), Err Exception_, Err ValueError => true
  | _, _, _, _ => false
  end.
Lemma names_run : exists w, reachable cfg0 w /\ names_test w = true.
Proof. apply (play_witness cfg0 two_nodes None). vm_compute. reflexivity. Qed.
