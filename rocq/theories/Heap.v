(** * Heap: reads after writes.  GENERATED by tools/gen_heap.py. *)
From Verif Require Import Base Types Sim.

Lemma w_nn_modv : forall i f w, w_nn (modv i f w) = w_nn w. Proof. reflexivity. Qed.
Lemma w_nl_modv : forall i f w, w_nl (modv i f w) = w_nl w. Proof. reflexivity. Qed.
Lemma w_nv_modv : forall i f w, w_nv (modv i f w) = w_nv w. Proof. reflexivity. Qed.
Lemma w_nr_modv : forall i f w, w_nr (modv i f w) = w_nr w. Proof. reflexivity. Qed.
Lemma w_nodes_modv : forall i f w, w_nodes (modv i f w) = w_nodes w. Proof. reflexivity. Qed.
Lemma w_links_modv : forall i f w, w_links (modv i f w) = w_links w. Proof. reflexivity. Qed.
Lemma w_reqs_modv : forall i f w, w_reqs (modv i f w) = w_reqs w. Proof. reflexivity. Qed.
Lemma w_pending_modv : forall i f w, w_pending (modv i f w) = w_pending w. Proof. reflexivity. Qed.
Lemma w_living_modv : forall i f w, w_living (modv i f w) = w_living w. Proof. reflexivity. Qed.
Lemma w_running_modv : forall i f w, w_running (modv i f w) = w_running w. Proof. reflexivity. Qed.
Lemma w_T_modv : forall i f w, w_T (modv i f w) = w_T w. Proof. reflexivity. Qed.
Lemma w_TIME_modv : forall i f w, w_TIME (modv i f w) = w_TIME w. Proof. reflexivity. Qed.
Lemma w_tmax_modv : forall i f w, w_tmax (modv i f w) = w_tmax w. Proof. reflexivity. Qed.
Lemma w_tsize_modv : forall i f w, w_tsize (modv i f w) = w_tsize w. Proof. reflexivity. Qed.
Lemma w_final_modv : forall i f w, w_final (modv i f w) = w_final w. Proof. reflexivity. Qed.
Lemma w_prefveh_modv : forall i f w, w_prefveh (modv i f w) = w_prefveh w. Proof. reflexivity. Qed.
Lemma w_rcdist_modv : forall i f w, w_rcdist (modv i f w) = w_rcdist w. Proof. reflexivity. Qed.
Lemma w_rcnext_modv : forall i f w, w_rcnext (modv i f w) = w_rcnext w. Proof. reflexivity. Qed.
Lemma w_rcpref_modv : forall i f w, w_rcpref (modv i f w) = w_rcpref w. Proof. reflexivity. Qed.
Lemma w_rcrec_modv : forall i f w, w_rcrec (modv i f w) = w_rcrec w. Proof. reflexivity. Qed.
Lemma w_avgspd_modv : forall i f w, w_avgspd (modv i f w) = w_avgspd w. Proof. reflexivity. Qed.
Lemma w_avgcnt_modv : forall i f w, w_avgcnt (modv i f w) = w_avgcnt w. Proof. reflexivity. Qed.
Lemma w_draw_modv : forall i f w, w_draw (modv i f w) = w_draw w. Proof. reflexivity. Qed.
Lemma L_modv : forall i f w, L (modv i f w) = L w. Proof. reflexivity. Qed.
Lemma N_modv : forall i f w, N (modv i f w) = N w. Proof. reflexivity. Qed.
Lemma R_modv : forall i f w, R (modv i f w) = R w. Proof. reflexivity. Qed.
Lemma w_nn_modl : forall i f w, w_nn (modl i f w) = w_nn w. Proof. reflexivity. Qed.
Lemma w_nl_modl : forall i f w, w_nl (modl i f w) = w_nl w. Proof. reflexivity. Qed.
Lemma w_nv_modl : forall i f w, w_nv (modl i f w) = w_nv w. Proof. reflexivity. Qed.
Lemma w_nr_modl : forall i f w, w_nr (modl i f w) = w_nr w. Proof. reflexivity. Qed.
Lemma w_nodes_modl : forall i f w, w_nodes (modl i f w) = w_nodes w. Proof. reflexivity. Qed.
Lemma w_vehs_modl : forall i f w, w_vehs (modl i f w) = w_vehs w. Proof. reflexivity. Qed.
Lemma w_reqs_modl : forall i f w, w_reqs (modl i f w) = w_reqs w. Proof. reflexivity. Qed.
Lemma w_pending_modl : forall i f w, w_pending (modl i f w) = w_pending w. Proof. reflexivity. Qed.
Lemma w_living_modl : forall i f w, w_living (modl i f w) = w_living w. Proof. reflexivity. Qed.
Lemma w_running_modl : forall i f w, w_running (modl i f w) = w_running w. Proof. reflexivity. Qed.
Lemma w_T_modl : forall i f w, w_T (modl i f w) = w_T w. Proof. reflexivity. Qed.
Lemma w_TIME_modl : forall i f w, w_TIME (modl i f w) = w_TIME w. Proof. reflexivity. Qed.
Lemma w_tmax_modl : forall i f w, w_tmax (modl i f w) = w_tmax w. Proof. reflexivity. Qed.
Lemma w_tsize_modl : forall i f w, w_tsize (modl i f w) = w_tsize w. Proof. reflexivity. Qed.
Lemma w_final_modl : forall i f w, w_final (modl i f w) = w_final w. Proof. reflexivity. Qed.
Lemma w_prefveh_modl : forall i f w, w_prefveh (modl i f w) = w_prefveh w. Proof. reflexivity. Qed.
Lemma w_rcdist_modl : forall i f w, w_rcdist (modl i f w) = w_rcdist w. Proof. reflexivity. Qed.
Lemma w_rcnext_modl : forall i f w, w_rcnext (modl i f w) = w_rcnext w. Proof. reflexivity. Qed.
Lemma w_rcpref_modl : forall i f w, w_rcpref (modl i f w) = w_rcpref w. Proof. reflexivity. Qed.
Lemma w_rcrec_modl : forall i f w, w_rcrec (modl i f w) = w_rcrec w. Proof. reflexivity. Qed.
Lemma w_avgspd_modl : forall i f w, w_avgspd (modl i f w) = w_avgspd w. Proof. reflexivity. Qed.
Lemma w_avgcnt_modl : forall i f w, w_avgcnt (modl i f w) = w_avgcnt w. Proof. reflexivity. Qed.
Lemma w_draw_modl : forall i f w, w_draw (modl i f w) = w_draw w. Proof. reflexivity. Qed.
Lemma V_modl : forall i f w, V (modl i f w) = V w. Proof. reflexivity. Qed.
Lemma N_modl : forall i f w, N (modl i f w) = N w. Proof. reflexivity. Qed.
Lemma R_modl : forall i f w, R (modl i f w) = R w. Proof. reflexivity. Qed.
Lemma w_nn_modn : forall i f w, w_nn (modn i f w) = w_nn w. Proof. reflexivity. Qed.
Lemma w_nl_modn : forall i f w, w_nl (modn i f w) = w_nl w. Proof. reflexivity. Qed.
Lemma w_nv_modn : forall i f w, w_nv (modn i f w) = w_nv w. Proof. reflexivity. Qed.
Lemma w_nr_modn : forall i f w, w_nr (modn i f w) = w_nr w. Proof. reflexivity. Qed.
Lemma w_links_modn : forall i f w, w_links (modn i f w) = w_links w. Proof. reflexivity. Qed.
Lemma w_vehs_modn : forall i f w, w_vehs (modn i f w) = w_vehs w. Proof. reflexivity. Qed.
Lemma w_reqs_modn : forall i f w, w_reqs (modn i f w) = w_reqs w. Proof. reflexivity. Qed.
Lemma w_pending_modn : forall i f w, w_pending (modn i f w) = w_pending w. Proof. reflexivity. Qed.
Lemma w_living_modn : forall i f w, w_living (modn i f w) = w_living w. Proof. reflexivity. Qed.
Lemma w_running_modn : forall i f w, w_running (modn i f w) = w_running w. Proof. reflexivity. Qed.
Lemma w_T_modn : forall i f w, w_T (modn i f w) = w_T w. Proof. reflexivity. Qed.
Lemma w_TIME_modn : forall i f w, w_TIME (modn i f w) = w_TIME w. Proof. reflexivity. Qed.
Lemma w_tmax_modn : forall i f w, w_tmax (modn i f w) = w_tmax w. Proof. reflexivity. Qed.
Lemma w_tsize_modn : forall i f w, w_tsize (modn i f w) = w_tsize w. Proof. reflexivity. Qed.
Lemma w_final_modn : forall i f w, w_final (modn i f w) = w_final w. Proof. reflexivity. Qed.
Lemma w_prefveh_modn : forall i f w, w_prefveh (modn i f w) = w_prefveh w. Proof. reflexivity. Qed.
Lemma w_rcdist_modn : forall i f w, w_rcdist (modn i f w) = w_rcdist w. Proof. reflexivity. Qed.
Lemma w_rcnext_modn : forall i f w, w_rcnext (modn i f w) = w_rcnext w. Proof. reflexivity. Qed.
Lemma w_rcpref_modn : forall i f w, w_rcpref (modn i f w) = w_rcpref w. Proof. reflexivity. Qed.
Lemma w_rcrec_modn : forall i f w, w_rcrec (modn i f w) = w_rcrec w. Proof. reflexivity. Qed.
Lemma w_avgspd_modn : forall i f w, w_avgspd (modn i f w) = w_avgspd w. Proof. reflexivity. Qed.
Lemma w_avgcnt_modn : forall i f w, w_avgcnt (modn i f w) = w_avgcnt w. Proof. reflexivity. Qed.
Lemma w_draw_modn : forall i f w, w_draw (modn i f w) = w_draw w. Proof. reflexivity. Qed.
Lemma V_modn : forall i f w, V (modn i f w) = V w. Proof. reflexivity. Qed.
Lemma L_modn : forall i f w, L (modn i f w) = L w. Proof. reflexivity. Qed.
Lemma R_modn : forall i f w, R (modn i f w) = R w. Proof. reflexivity. Qed.
Lemma w_nn_modr : forall i f w, w_nn (modr i f w) = w_nn w. Proof. reflexivity. Qed.
Lemma w_nl_modr : forall i f w, w_nl (modr i f w) = w_nl w. Proof. reflexivity. Qed.
Lemma w_nv_modr : forall i f w, w_nv (modr i f w) = w_nv w. Proof. reflexivity. Qed.
Lemma w_nr_modr : forall i f w, w_nr (modr i f w) = w_nr w. Proof. reflexivity. Qed.
Lemma w_nodes_modr : forall i f w, w_nodes (modr i f w) = w_nodes w. Proof. reflexivity. Qed.
Lemma w_links_modr : forall i f w, w_links (modr i f w) = w_links w. Proof. reflexivity. Qed.
Lemma w_vehs_modr : forall i f w, w_vehs (modr i f w) = w_vehs w. Proof. reflexivity. Qed.
Lemma w_pending_modr : forall i f w, w_pending (modr i f w) = w_pending w. Proof. reflexivity. Qed.
Lemma w_living_modr : forall i f w, w_living (modr i f w) = w_living w. Proof. reflexivity. Qed.
Lemma w_running_modr : forall i f w, w_running (modr i f w) = w_running w. Proof. reflexivity. Qed.
Lemma w_T_modr : forall i f w, w_T (modr i f w) = w_T w. Proof. reflexivity. Qed.
Lemma w_TIME_modr : forall i f w, w_TIME (modr i f w) = w_TIME w. Proof. reflexivity. Qed.
Lemma w_tmax_modr : forall i f w, w_tmax (modr i f w) = w_tmax w. Proof. reflexivity. Qed.
Lemma w_tsize_modr : forall i f w, w_tsize (modr i f w) = w_tsize w. Proof. reflexivity. Qed.
Lemma w_final_modr : forall i f w, w_final (modr i f w) = w_final w. Proof. reflexivity. Qed.
Lemma w_prefveh_modr : forall i f w, w_prefveh (modr i f w) = w_prefveh w. Proof. reflexivity. Qed.
Lemma w_rcdist_modr : forall i f w, w_rcdist (modr i f w) = w_rcdist w. Proof. reflexivity. Qed.
Lemma w_rcnext_modr : forall i f w, w_rcnext (modr i f w) = w_rcnext w. Proof. reflexivity. Qed.
Lemma w_rcpref_modr : forall i f w, w_rcpref (modr i f w) = w_rcpref w. Proof. reflexivity. Qed.
Lemma w_rcrec_modr : forall i f w, w_rcrec (modr i f w) = w_rcrec w. Proof. reflexivity. Qed.
Lemma w_avgspd_modr : forall i f w, w_avgspd (modr i f w) = w_avgspd w. Proof. reflexivity. Qed.
Lemma w_avgcnt_modr : forall i f w, w_avgcnt (modr i f w) = w_avgcnt w. Proof. reflexivity. Qed.
Lemma w_draw_modr : forall i f w, w_draw (modr i f w) = w_draw w. Proof. reflexivity. Qed.
Lemma V_modr : forall i f w, V (modr i f w) = V w. Proof. reflexivity. Qed.
Lemma L_modr : forall i f w, L (modr i f w) = L w. Proof. reflexivity. Qed.
Lemma N_modr : forall i f w, N (modr i f w) = N w. Proof. reflexivity. Qed.
Lemma V_sw_nn : forall a w, V (sw_nn a w) = V w. Proof. reflexivity. Qed.
Lemma V_sw_nl : forall a w, V (sw_nl a w) = V w. Proof. reflexivity. Qed.
Lemma V_sw_nv : forall a w, V (sw_nv a w) = V w. Proof. reflexivity. Qed.
Lemma V_sw_nr : forall a w, V (sw_nr a w) = V w. Proof. reflexivity. Qed.
Lemma V_sw_nodes : forall a w, V (sw_nodes a w) = V w. Proof. reflexivity. Qed.
Lemma V_sw_links : forall a w, V (sw_links a w) = V w. Proof. reflexivity. Qed.
Lemma V_sw_reqs : forall a w, V (sw_reqs a w) = V w. Proof. reflexivity. Qed.
Lemma V_sw_pending : forall a w, V (sw_pending a w) = V w. Proof. reflexivity. Qed.
Lemma V_sw_living : forall a w, V (sw_living a w) = V w. Proof. reflexivity. Qed.
Lemma V_sw_running : forall a w, V (sw_running a w) = V w. Proof. reflexivity. Qed.
Lemma V_sw_T : forall a w, V (sw_T a w) = V w. Proof. reflexivity. Qed.
Lemma V_sw_TIME : forall a w, V (sw_TIME a w) = V w. Proof. reflexivity. Qed.
Lemma V_sw_tmax : forall a w, V (sw_tmax a w) = V w. Proof. reflexivity. Qed.
Lemma V_sw_tsize : forall a w, V (sw_tsize a w) = V w. Proof. reflexivity. Qed.
Lemma V_sw_final : forall a w, V (sw_final a w) = V w. Proof. reflexivity. Qed.
Lemma V_sw_prefveh : forall a w, V (sw_prefveh a w) = V w. Proof. reflexivity. Qed.
Lemma V_sw_rcdist : forall a w, V (sw_rcdist a w) = V w. Proof. reflexivity. Qed.
Lemma V_sw_rcnext : forall a w, V (sw_rcnext a w) = V w. Proof. reflexivity. Qed.
Lemma V_sw_rcpref : forall a w, V (sw_rcpref a w) = V w. Proof. reflexivity. Qed.
Lemma V_sw_rcrec : forall a w, V (sw_rcrec a w) = V w. Proof. reflexivity. Qed.
Lemma V_sw_avgspd : forall a w, V (sw_avgspd a w) = V w. Proof. reflexivity. Qed.
Lemma V_sw_avgcnt : forall a w, V (sw_avgcnt a w) = V w. Proof. reflexivity. Qed.
Lemma V_sw_draw : forall a w, V (sw_draw a w) = V w. Proof. reflexivity. Qed.
Lemma L_sw_nn : forall a w, L (sw_nn a w) = L w. Proof. reflexivity. Qed.
Lemma L_sw_nl : forall a w, L (sw_nl a w) = L w. Proof. reflexivity. Qed.
Lemma L_sw_nv : forall a w, L (sw_nv a w) = L w. Proof. reflexivity. Qed.
Lemma L_sw_nr : forall a w, L (sw_nr a w) = L w. Proof. reflexivity. Qed.
Lemma L_sw_nodes : forall a w, L (sw_nodes a w) = L w. Proof. reflexivity. Qed.
Lemma L_sw_vehs : forall a w, L (sw_vehs a w) = L w. Proof. reflexivity. Qed.
Lemma L_sw_reqs : forall a w, L (sw_reqs a w) = L w. Proof. reflexivity. Qed.
Lemma L_sw_pending : forall a w, L (sw_pending a w) = L w. Proof. reflexivity. Qed.
Lemma L_sw_living : forall a w, L (sw_living a w) = L w. Proof. reflexivity. Qed.
Lemma L_sw_running : forall a w, L (sw_running a w) = L w. Proof. reflexivity. Qed.
Lemma L_sw_T : forall a w, L (sw_T a w) = L w. Proof. reflexivity. Qed.
Lemma L_sw_TIME : forall a w, L (sw_TIME a w) = L w. Proof. reflexivity. Qed.
Lemma L_sw_tmax : forall a w, L (sw_tmax a w) = L w. Proof. reflexivity. Qed.
Lemma L_sw_tsize : forall a w, L (sw_tsize a w) = L w. Proof. reflexivity. Qed.
Lemma L_sw_final : forall a w, L (sw_final a w) = L w. Proof. reflexivity. Qed.
Lemma L_sw_prefveh : forall a w, L (sw_prefveh a w) = L w. Proof. reflexivity. Qed.
Lemma L_sw_rcdist : forall a w, L (sw_rcdist a w) = L w. Proof. reflexivity. Qed.
Lemma L_sw_rcnext : forall a w, L (sw_rcnext a w) = L w. Proof. reflexivity. Qed.
Lemma L_sw_rcpref : forall a w, L (sw_rcpref a w) = L w. Proof. reflexivity. Qed.
Lemma L_sw_rcrec : forall a w, L (sw_rcrec a w) = L w. Proof. reflexivity. Qed.
Lemma L_sw_avgspd : forall a w, L (sw_avgspd a w) = L w. Proof. reflexivity. Qed.
Lemma L_sw_avgcnt : forall a w, L (sw_avgcnt a w) = L w. Proof. reflexivity. Qed.
Lemma L_sw_draw : forall a w, L (sw_draw a w) = L w. Proof. reflexivity. Qed.
Lemma N_sw_nn : forall a w, N (sw_nn a w) = N w. Proof. reflexivity. Qed.
Lemma N_sw_nl : forall a w, N (sw_nl a w) = N w. Proof. reflexivity. Qed.
Lemma N_sw_nv : forall a w, N (sw_nv a w) = N w. Proof. reflexivity. Qed.
Lemma N_sw_nr : forall a w, N (sw_nr a w) = N w. Proof. reflexivity. Qed.
Lemma N_sw_links : forall a w, N (sw_links a w) = N w. Proof. reflexivity. Qed.
Lemma N_sw_vehs : forall a w, N (sw_vehs a w) = N w. Proof. reflexivity. Qed.
Lemma N_sw_reqs : forall a w, N (sw_reqs a w) = N w. Proof. reflexivity. Qed.
Lemma N_sw_pending : forall a w, N (sw_pending a w) = N w. Proof. reflexivity. Qed.
Lemma N_sw_living : forall a w, N (sw_living a w) = N w. Proof. reflexivity. Qed.
Lemma N_sw_running : forall a w, N (sw_running a w) = N w. Proof. reflexivity. Qed.
Lemma N_sw_T : forall a w, N (sw_T a w) = N w. Proof. reflexivity. Qed.
Lemma N_sw_TIME : forall a w, N (sw_TIME a w) = N w. Proof. reflexivity. Qed.
Lemma N_sw_tmax : forall a w, N (sw_tmax a w) = N w. Proof. reflexivity. Qed.
Lemma N_sw_tsize : forall a w, N (sw_tsize a w) = N w. Proof. reflexivity. Qed.
Lemma N_sw_final : forall a w, N (sw_final a w) = N w. Proof. reflexivity. Qed.
Lemma N_sw_prefveh : forall a w, N (sw_prefveh a w) = N w. Proof. reflexivity. Qed.
Lemma N_sw_rcdist : forall a w, N (sw_rcdist a w) = N w. Proof. reflexivity. Qed.
Lemma N_sw_rcnext : forall a w, N (sw_rcnext a w) = N w. Proof. reflexivity. Qed.
Lemma N_sw_rcpref : forall a w, N (sw_rcpref a w) = N w. Proof. reflexivity. Qed.
Lemma N_sw_rcrec : forall a w, N (sw_rcrec a w) = N w. Proof. reflexivity. Qed.
Lemma N_sw_avgspd : forall a w, N (sw_avgspd a w) = N w. Proof. reflexivity. Qed.
Lemma N_sw_avgcnt : forall a w, N (sw_avgcnt a w) = N w. Proof. reflexivity. Qed.
Lemma N_sw_draw : forall a w, N (sw_draw a w) = N w. Proof. reflexivity. Qed.
Lemma R_sw_nn : forall a w, R (sw_nn a w) = R w. Proof. reflexivity. Qed.
Lemma R_sw_nl : forall a w, R (sw_nl a w) = R w. Proof. reflexivity. Qed.
Lemma R_sw_nv : forall a w, R (sw_nv a w) = R w. Proof. reflexivity. Qed.
Lemma R_sw_nr : forall a w, R (sw_nr a w) = R w. Proof. reflexivity. Qed.
Lemma R_sw_nodes : forall a w, R (sw_nodes a w) = R w. Proof. reflexivity. Qed.
Lemma R_sw_links : forall a w, R (sw_links a w) = R w. Proof. reflexivity. Qed.
Lemma R_sw_vehs : forall a w, R (sw_vehs a w) = R w. Proof. reflexivity. Qed.
Lemma R_sw_pending : forall a w, R (sw_pending a w) = R w. Proof. reflexivity. Qed.
Lemma R_sw_living : forall a w, R (sw_living a w) = R w. Proof. reflexivity. Qed.
Lemma R_sw_running : forall a w, R (sw_running a w) = R w. Proof. reflexivity. Qed.
Lemma R_sw_T : forall a w, R (sw_T a w) = R w. Proof. reflexivity. Qed.
Lemma R_sw_TIME : forall a w, R (sw_TIME a w) = R w. Proof. reflexivity. Qed.
Lemma R_sw_tmax : forall a w, R (sw_tmax a w) = R w. Proof. reflexivity. Qed.
Lemma R_sw_tsize : forall a w, R (sw_tsize a w) = R w. Proof. reflexivity. Qed.
Lemma R_sw_final : forall a w, R (sw_final a w) = R w. Proof. reflexivity. Qed.
Lemma R_sw_prefveh : forall a w, R (sw_prefveh a w) = R w. Proof. reflexivity. Qed.
Lemma R_sw_rcdist : forall a w, R (sw_rcdist a w) = R w. Proof. reflexivity. Qed.
Lemma R_sw_rcnext : forall a w, R (sw_rcnext a w) = R w. Proof. reflexivity. Qed.
Lemma R_sw_rcpref : forall a w, R (sw_rcpref a w) = R w. Proof. reflexivity. Qed.
Lemma R_sw_rcrec : forall a w, R (sw_rcrec a w) = R w. Proof. reflexivity. Qed.
Lemma R_sw_avgspd : forall a w, R (sw_avgspd a w) = R w. Proof. reflexivity. Qed.
Lemma R_sw_avgcnt : forall a w, R (sw_avgcnt a w) = R w. Proof. reflexivity. Qed.
Lemma R_sw_draw : forall a w, R (sw_draw a w) = R w. Proof. reflexivity. Qed.
Lemma V_modv : forall i f w j, V (modv i f w) j = if Nat.eqb j i then f (V w i) else V w j.
Proof. reflexivity. Qed.
Lemma V_modv_same : forall i f w, V (modv i f w) i = f (V w i).
Proof. intros. rewrite V_modv, Nat.eqb_refl. reflexivity. Qed.
Lemma V_modv_other : forall i f w j, j <> i -> V (modv i f w) j = V w j.
Proof. intros i f w j H. rewrite V_modv. apply Nat.eqb_neq in H. rewrite H. reflexivity. Qed.
Lemma L_modl : forall i f w j, L (modl i f w) j = if Nat.eqb j i then f (L w i) else L w j.
Proof. reflexivity. Qed.
Lemma L_modl_same : forall i f w, L (modl i f w) i = f (L w i).
Proof. intros. rewrite L_modl, Nat.eqb_refl. reflexivity. Qed.
Lemma L_modl_other : forall i f w j, j <> i -> L (modl i f w) j = L w j.
Proof. intros i f w j H. rewrite L_modl. apply Nat.eqb_neq in H. rewrite H. reflexivity. Qed.
Lemma N_modn : forall i f w j, N (modn i f w) j = if Nat.eqb j i then f (N w i) else N w j.
Proof. reflexivity. Qed.
Lemma N_modn_same : forall i f w, N (modn i f w) i = f (N w i).
Proof. intros. rewrite N_modn, Nat.eqb_refl. reflexivity. Qed.
Lemma N_modn_other : forall i f w j, j <> i -> N (modn i f w) j = N w j.
Proof. intros i f w j H. rewrite N_modn. apply Nat.eqb_neq in H. rewrite H. reflexivity. Qed.
Lemma R_modr : forall i f w j, R (modr i f w) j = if Nat.eqb j i then f (R w i) else R w j.
Proof. reflexivity. Qed.
Lemma R_modr_same : forall i f w, R (modr i f w) i = f (R w i).
Proof. intros. rewrite R_modr, Nat.eqb_refl. reflexivity. Qed.
Lemma R_modr_other : forall i f w j, j <> i -> R (modr i f w) j = R w j.
Proof. intros i f w j H. rewrite R_modr. apply Nat.eqb_neq in H. rewrite H. reflexivity. Qed.
Global Hint Rewrite w_nn_modv
  w_nl_modv
  w_nv_modv
  w_nr_modv
  w_nodes_modv
  w_links_modv
  w_reqs_modv
  w_pending_modv
  w_living_modv
  w_running_modv
  w_T_modv
  w_TIME_modv
  w_tmax_modv
  w_tsize_modv
  w_final_modv
  w_prefveh_modv
  w_rcdist_modv
  w_rcnext_modv
  w_rcpref_modv
  w_rcrec_modv
  w_avgspd_modv
  w_avgcnt_modv
  w_draw_modv
  L_modv
  N_modv
  R_modv
  w_nn_modl
  w_nl_modl
  w_nv_modl
  w_nr_modl
  w_nodes_modl
  w_vehs_modl
  w_reqs_modl
  w_pending_modl
  w_living_modl
  w_running_modl
  w_T_modl
  w_TIME_modl
  w_tmax_modl
  w_tsize_modl
  w_final_modl
  w_prefveh_modl
  w_rcdist_modl
  w_rcnext_modl
  w_rcpref_modl
  w_rcrec_modl
  w_avgspd_modl
  w_avgcnt_modl
  w_draw_modl
  V_modl
  N_modl
  R_modl
  w_nn_modn
  w_nl_modn
  w_nv_modn
  w_nr_modn
  w_links_modn
  w_vehs_modn
  w_reqs_modn
  w_pending_modn
  w_living_modn
  w_running_modn
  w_T_modn
  w_TIME_modn
  w_tmax_modn
  w_tsize_modn
  w_final_modn
  w_prefveh_modn
  w_rcdist_modn
  w_rcnext_modn
  w_rcpref_modn
  w_rcrec_modn
  w_avgspd_modn
  w_avgcnt_modn
  w_draw_modn
  V_modn
  L_modn
  R_modn
  w_nn_modr
  w_nl_modr
  w_nv_modr
  w_nr_modr
  w_nodes_modr
  w_links_modr
  w_vehs_modr
  w_pending_modr
  w_living_modr
  w_running_modr
  w_T_modr
  w_TIME_modr
  w_tmax_modr
  w_tsize_modr
  w_final_modr
  w_prefveh_modr
  w_rcdist_modr
  w_rcnext_modr
  w_rcpref_modr
  w_rcrec_modr
  w_avgspd_modr
  w_avgcnt_modr
  w_draw_modr
  V_modr
  L_modr
  N_modr
  V_sw_nn
  V_sw_nl
  V_sw_nv
  V_sw_nr
  V_sw_nodes
  V_sw_links
  V_sw_reqs
  V_sw_pending
  V_sw_living
  V_sw_running
  V_sw_T
  V_sw_TIME
  V_sw_tmax
  V_sw_tsize
  V_sw_final
  V_sw_prefveh
  V_sw_rcdist
  V_sw_rcnext
  V_sw_rcpref
  V_sw_rcrec
  V_sw_avgspd
  V_sw_avgcnt
  V_sw_draw
  L_sw_nn
  L_sw_nl
  L_sw_nv
  L_sw_nr
  L_sw_nodes
  L_sw_vehs
  L_sw_reqs
  L_sw_pending
  L_sw_living
  L_sw_running
  L_sw_T
  L_sw_TIME
  L_sw_tmax
  L_sw_tsize
  L_sw_final
  L_sw_prefveh
  L_sw_rcdist
  L_sw_rcnext
  L_sw_rcpref
  L_sw_rcrec
  L_sw_avgspd
  L_sw_avgcnt
  L_sw_draw
  N_sw_nn
  N_sw_nl
  N_sw_nv
  N_sw_nr
  N_sw_links
  N_sw_vehs
  N_sw_reqs
  N_sw_pending
  N_sw_living
  N_sw_running
  N_sw_T
  N_sw_TIME
  N_sw_tmax
  N_sw_tsize
  N_sw_final
  N_sw_prefveh
  N_sw_rcdist
  N_sw_rcnext
  N_sw_rcpref
  N_sw_rcrec
  N_sw_avgspd
  N_sw_avgcnt
  N_sw_draw
  R_sw_nn
  R_sw_nl
  R_sw_nv
  R_sw_nr
  R_sw_nodes
  R_sw_links
  R_sw_vehs
  R_sw_pending
  R_sw_living
  R_sw_running
  R_sw_T
  R_sw_TIME
  R_sw_tmax
  R_sw_tsize
  R_sw_final
  R_sw_prefveh
  R_sw_rcdist
  R_sw_rcnext
  R_sw_rcpref
  R_sw_rcrec
  R_sw_avgspd
  R_sw_avgcnt
  R_sw_draw
  V_modv_same
  L_modl_same
  N_modn_same
  R_modr_same : hp.

(** simplify reads after writes at known distinct or equal indices *)
Ltac hs := autorewrite with hp; rs.
Ltac hsin H := autorewrite with hp in H; rs in H.

