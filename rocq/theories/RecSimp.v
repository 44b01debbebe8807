(** Reduction of projections of updated records. *)
From Verif Require Import Types.
Ltac rs := cbn [st_device st_linsys_solver st_allocate_solution st_verbose st_profiler_level st_warm_starting st_scaling
    st_polishing st_rho st_rho_is_vec st_sigma st_alpha st_cg_max_iter st_cg_tol_reduction st_cg_tol_fraction
    st_cg_precond st_adaptive_rho st_adaptive_rho_interval st_adaptive_rho_fraction st_adaptive_rho_tolerance
    st_max_iter st_eps_abs st_eps_rel st_eps_prim_inf st_eps_dual_inf st_scaled_termination st_check_termination
    st_check_dualgap st_time_limit st_delta st_polish_refine_iter set_st_device set_st_linsys_solver
    set_st_allocate_solution set_st_verbose set_st_profiler_level set_st_warm_starting set_st_scaling
    set_st_polishing set_st_rho set_st_rho_is_vec set_st_sigma set_st_alpha set_st_cg_max_iter
    set_st_cg_tol_reduction set_st_cg_tol_fraction set_st_cg_precond set_st_adaptive_rho
    set_st_adaptive_rho_interval set_st_adaptive_rho_fraction set_st_adaptive_rho_tolerance set_st_max_iter
    set_st_eps_abs set_st_eps_rel set_st_eps_prim_inf set_st_eps_dual_inf set_st_scaled_termination
    set_st_check_termination set_st_check_dualgap set_st_time_limit set_st_delta set_st_polish_refine_iter
    i_status i_status_val i_status_polish i_obj_val i_dual_obj_val i_prim_res i_dual_res i_duality_gap i_iter
    i_rho_updates i_rho_estimate i_setup_time i_solve_time i_update_time i_polish_time i_run_time i_primdual_int
    i_rel_kkt_error set_i_status set_i_status_val set_i_status_polish set_i_obj_val set_i_dual_obj_val
    set_i_prim_res set_i_dual_res set_i_duality_gap set_i_iter set_i_rho_updates set_i_rho_estimate
    set_i_setup_time set_i_solve_time set_i_update_time set_i_polish_time set_i_run_time set_i_primdual_int
    set_i_rel_kkt_error so_x so_y so_prim_inf_cert so_dual_inf_cert set_so_x set_so_y set_so_prim_inf_cert
    set_so_dual_inf_cert d_n d_m d_P d_A d_q d_l d_u set_d_n set_d_m set_d_P set_d_A set_d_q set_d_l set_d_u sc_c
    sc_D sc_E sc_cinv sc_Dinv sc_Einv set_sc_c set_sc_D set_sc_E set_sc_cinv set_sc_Dinv set_sc_Einv ls_n ls_m
    ls_sigma ls_rho_inv ls_rho_inv_vec ls_polishing ls_perm ls_KKT ls_PtoKKT ls_AtoKKT ls_rhotoKKT ls_fac set_ls_n
    set_ls_m set_ls_sigma set_ls_rho_inv set_ls_rho_inv_vec set_ls_polishing set_ls_perm set_ls_KKT set_ls_PtoKKT
    set_ls_AtoKKT set_ls_rhotoKKT set_ls_fac p_n_active p_active_flags p_x p_z p_y p_obj_val p_dual_obj_val
    p_duality_gap p_prim_res p_dual_res set_p_n_active set_p_active_flags set_p_x set_p_z set_p_y set_p_obj_val
    set_p_dual_obj_val set_p_duality_gap set_p_prim_res set_p_dual_res w_data w_linsys w_pol w_rho_vec
    w_rho_inv_vec w_constr_type w_x w_y w_z w_xz_tilde w_x_prev w_z_prev w_Ax w_Px w_Aty w_xtPx w_qtx w_SC
    w_scaled_dual_gap w_delta_y w_Atdelta_y w_delta_x w_Pdelta_x w_Adelta_x w_D_temp w_D_temp_A w_E_temp w_scaling
    w_scaled_prim_res w_scaled_dual_res w_rho_inv w_first_run w_clear_update_time w_rho_update_from_solve
    w_summary_printed w_rho_updated w_last_rel_kkt set_w_data set_w_linsys set_w_pol set_w_rho_vec
    set_w_rho_inv_vec set_w_constr_type set_w_x set_w_y set_w_z set_w_xz_tilde set_w_x_prev set_w_z_prev set_w_Ax
    set_w_Px set_w_Aty set_w_xtPx set_w_qtx set_w_SC set_w_scaled_dual_gap set_w_delta_y set_w_Atdelta_y
    set_w_delta_x set_w_Pdelta_x set_w_Adelta_x set_w_D_temp set_w_D_temp_A set_w_E_temp set_w_scaling
    set_w_scaled_prim_res set_w_scaled_dual_res set_w_rho_inv set_w_first_run set_w_clear_update_time
    set_w_rho_update_from_solve set_w_summary_printed set_w_rho_updated set_w_last_rel_kkt g_tocs g_polls
    g_handler g_oact g_sections set_g_tocs set_g_polls set_g_handler set_g_oact set_g_sections sv_settings
    sv_solution sv_info sv_work sv_world set_sv_settings set_sv_solution set_sv_info set_sv_work set_sv_world].
Ltac rs_in H := cbn [st_device st_linsys_solver st_allocate_solution st_verbose st_profiler_level st_warm_starting st_scaling
    st_polishing st_rho st_rho_is_vec st_sigma st_alpha st_cg_max_iter st_cg_tol_reduction st_cg_tol_fraction
    st_cg_precond st_adaptive_rho st_adaptive_rho_interval st_adaptive_rho_fraction st_adaptive_rho_tolerance
    st_max_iter st_eps_abs st_eps_rel st_eps_prim_inf st_eps_dual_inf st_scaled_termination st_check_termination
    st_check_dualgap st_time_limit st_delta st_polish_refine_iter set_st_device set_st_linsys_solver
    set_st_allocate_solution set_st_verbose set_st_profiler_level set_st_warm_starting set_st_scaling
    set_st_polishing set_st_rho set_st_rho_is_vec set_st_sigma set_st_alpha set_st_cg_max_iter
    set_st_cg_tol_reduction set_st_cg_tol_fraction set_st_cg_precond set_st_adaptive_rho
    set_st_adaptive_rho_interval set_st_adaptive_rho_fraction set_st_adaptive_rho_tolerance set_st_max_iter
    set_st_eps_abs set_st_eps_rel set_st_eps_prim_inf set_st_eps_dual_inf set_st_scaled_termination
    set_st_check_termination set_st_check_dualgap set_st_time_limit set_st_delta set_st_polish_refine_iter
    i_status i_status_val i_status_polish i_obj_val i_dual_obj_val i_prim_res i_dual_res i_duality_gap i_iter
    i_rho_updates i_rho_estimate i_setup_time i_solve_time i_update_time i_polish_time i_run_time i_primdual_int
    i_rel_kkt_error set_i_status set_i_status_val set_i_status_polish set_i_obj_val set_i_dual_obj_val
    set_i_prim_res set_i_dual_res set_i_duality_gap set_i_iter set_i_rho_updates set_i_rho_estimate
    set_i_setup_time set_i_solve_time set_i_update_time set_i_polish_time set_i_run_time set_i_primdual_int
    set_i_rel_kkt_error so_x so_y so_prim_inf_cert so_dual_inf_cert set_so_x set_so_y set_so_prim_inf_cert
    set_so_dual_inf_cert d_n d_m d_P d_A d_q d_l d_u set_d_n set_d_m set_d_P set_d_A set_d_q set_d_l set_d_u sc_c
    sc_D sc_E sc_cinv sc_Dinv sc_Einv set_sc_c set_sc_D set_sc_E set_sc_cinv set_sc_Dinv set_sc_Einv ls_n ls_m
    ls_sigma ls_rho_inv ls_rho_inv_vec ls_polishing ls_perm ls_KKT ls_PtoKKT ls_AtoKKT ls_rhotoKKT ls_fac set_ls_n
    set_ls_m set_ls_sigma set_ls_rho_inv set_ls_rho_inv_vec set_ls_polishing set_ls_perm set_ls_KKT set_ls_PtoKKT
    set_ls_AtoKKT set_ls_rhotoKKT set_ls_fac p_n_active p_active_flags p_x p_z p_y p_obj_val p_dual_obj_val
    p_duality_gap p_prim_res p_dual_res set_p_n_active set_p_active_flags set_p_x set_p_z set_p_y set_p_obj_val
    set_p_dual_obj_val set_p_duality_gap set_p_prim_res set_p_dual_res w_data w_linsys w_pol w_rho_vec
    w_rho_inv_vec w_constr_type w_x w_y w_z w_xz_tilde w_x_prev w_z_prev w_Ax w_Px w_Aty w_xtPx w_qtx w_SC
    w_scaled_dual_gap w_delta_y w_Atdelta_y w_delta_x w_Pdelta_x w_Adelta_x w_D_temp w_D_temp_A w_E_temp w_scaling
    w_scaled_prim_res w_scaled_dual_res w_rho_inv w_first_run w_clear_update_time w_rho_update_from_solve
    w_summary_printed w_rho_updated w_last_rel_kkt set_w_data set_w_linsys set_w_pol set_w_rho_vec
    set_w_rho_inv_vec set_w_constr_type set_w_x set_w_y set_w_z set_w_xz_tilde set_w_x_prev set_w_z_prev set_w_Ax
    set_w_Px set_w_Aty set_w_xtPx set_w_qtx set_w_SC set_w_scaled_dual_gap set_w_delta_y set_w_Atdelta_y
    set_w_delta_x set_w_Pdelta_x set_w_Adelta_x set_w_D_temp set_w_D_temp_A set_w_E_temp set_w_scaling
    set_w_scaled_prim_res set_w_scaled_dual_res set_w_rho_inv set_w_first_run set_w_clear_update_time
    set_w_rho_update_from_solve set_w_summary_printed set_w_rho_updated set_w_last_rel_kkt g_tocs g_polls
    g_handler g_oact g_sections set_g_tocs set_g_polls set_g_handler set_g_oact set_g_sections sv_settings
    sv_solution sv_info sv_work sv_world set_sv_settings set_sv_solution set_sv_info set_sv_work set_sv_world] in H.
Ltac rs_all := cbn [st_device st_linsys_solver st_allocate_solution st_verbose st_profiler_level st_warm_starting st_scaling
    st_polishing st_rho st_rho_is_vec st_sigma st_alpha st_cg_max_iter st_cg_tol_reduction st_cg_tol_fraction
    st_cg_precond st_adaptive_rho st_adaptive_rho_interval st_adaptive_rho_fraction st_adaptive_rho_tolerance
    st_max_iter st_eps_abs st_eps_rel st_eps_prim_inf st_eps_dual_inf st_scaled_termination st_check_termination
    st_check_dualgap st_time_limit st_delta st_polish_refine_iter set_st_device set_st_linsys_solver
    set_st_allocate_solution set_st_verbose set_st_profiler_level set_st_warm_starting set_st_scaling
    set_st_polishing set_st_rho set_st_rho_is_vec set_st_sigma set_st_alpha set_st_cg_max_iter
    set_st_cg_tol_reduction set_st_cg_tol_fraction set_st_cg_precond set_st_adaptive_rho
    set_st_adaptive_rho_interval set_st_adaptive_rho_fraction set_st_adaptive_rho_tolerance set_st_max_iter
    set_st_eps_abs set_st_eps_rel set_st_eps_prim_inf set_st_eps_dual_inf set_st_scaled_termination
    set_st_check_termination set_st_check_dualgap set_st_time_limit set_st_delta set_st_polish_refine_iter
    i_status i_status_val i_status_polish i_obj_val i_dual_obj_val i_prim_res i_dual_res i_duality_gap i_iter
    i_rho_updates i_rho_estimate i_setup_time i_solve_time i_update_time i_polish_time i_run_time i_primdual_int
    i_rel_kkt_error set_i_status set_i_status_val set_i_status_polish set_i_obj_val set_i_dual_obj_val
    set_i_prim_res set_i_dual_res set_i_duality_gap set_i_iter set_i_rho_updates set_i_rho_estimate
    set_i_setup_time set_i_solve_time set_i_update_time set_i_polish_time set_i_run_time set_i_primdual_int
    set_i_rel_kkt_error so_x so_y so_prim_inf_cert so_dual_inf_cert set_so_x set_so_y set_so_prim_inf_cert
    set_so_dual_inf_cert d_n d_m d_P d_A d_q d_l d_u set_d_n set_d_m set_d_P set_d_A set_d_q set_d_l set_d_u sc_c
    sc_D sc_E sc_cinv sc_Dinv sc_Einv set_sc_c set_sc_D set_sc_E set_sc_cinv set_sc_Dinv set_sc_Einv ls_n ls_m
    ls_sigma ls_rho_inv ls_rho_inv_vec ls_polishing ls_perm ls_KKT ls_PtoKKT ls_AtoKKT ls_rhotoKKT ls_fac set_ls_n
    set_ls_m set_ls_sigma set_ls_rho_inv set_ls_rho_inv_vec set_ls_polishing set_ls_perm set_ls_KKT set_ls_PtoKKT
    set_ls_AtoKKT set_ls_rhotoKKT set_ls_fac p_n_active p_active_flags p_x p_z p_y p_obj_val p_dual_obj_val
    p_duality_gap p_prim_res p_dual_res set_p_n_active set_p_active_flags set_p_x set_p_z set_p_y set_p_obj_val
    set_p_dual_obj_val set_p_duality_gap set_p_prim_res set_p_dual_res w_data w_linsys w_pol w_rho_vec
    w_rho_inv_vec w_constr_type w_x w_y w_z w_xz_tilde w_x_prev w_z_prev w_Ax w_Px w_Aty w_xtPx w_qtx w_SC
    w_scaled_dual_gap w_delta_y w_Atdelta_y w_delta_x w_Pdelta_x w_Adelta_x w_D_temp w_D_temp_A w_E_temp w_scaling
    w_scaled_prim_res w_scaled_dual_res w_rho_inv w_first_run w_clear_update_time w_rho_update_from_solve
    w_summary_printed w_rho_updated w_last_rel_kkt set_w_data set_w_linsys set_w_pol set_w_rho_vec
    set_w_rho_inv_vec set_w_constr_type set_w_x set_w_y set_w_z set_w_xz_tilde set_w_x_prev set_w_z_prev set_w_Ax
    set_w_Px set_w_Aty set_w_xtPx set_w_qtx set_w_SC set_w_scaled_dual_gap set_w_delta_y set_w_Atdelta_y
    set_w_delta_x set_w_Pdelta_x set_w_Adelta_x set_w_D_temp set_w_D_temp_A set_w_E_temp set_w_scaling
    set_w_scaled_prim_res set_w_scaled_dual_res set_w_rho_inv set_w_first_run set_w_clear_update_time
    set_w_rho_update_from_solve set_w_summary_printed set_w_rho_updated set_w_last_rel_kkt g_tocs g_polls
    g_handler g_oact g_sections set_g_tocs set_g_polls set_g_handler set_g_oact set_g_sections sv_settings
    sv_solution sv_info sv_work sv_world set_sv_settings set_sv_solution set_sv_info set_sv_work set_sv_world] in *.
