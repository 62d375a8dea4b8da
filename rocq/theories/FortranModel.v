(** The constants of the Fortran interface, include/primme_eigs_f77.h, primme_eigs_f90.inc,
    primme_svds_f77.h and primme_svds_f90.inc, in lower case, as Fortran does not tell
    cases apart; and the wrappers of src/eigs/primme_f77.c and src/svds/primme_svds_f77.c. *)
From Coq Require Import String ZArith List.
From Verif Require Import Base FieldsModel ParamsModel MembersModel SvdsFieldsModel SvdsParamsModel SvdsMembersModel.
Import ListNotations.
Open Scope Z_scope.

(** primme_eigs_f77.h 59-331 *)
Definition f77_eigs : list (string * Z) := [
  ("primme_default_method"%string, 0);
  ("primme_dynamic"%string, 1);
  ("primme_default_min_time"%string, 2);
  ("primme_default_min_matvecs"%string, 3);
  ("primme_arnoldi"%string, 4);
  ("primme_gd"%string, 5);
  ("primme_gd_plusk"%string, 6);
  ("primme_gd_olsen_plusk"%string, 7);
  ("primme_jd_olsen_plusk"%string, 8);
  ("primme_rqi"%string, 9);
  ("primme_jdqr"%string, 10);
  ("primme_jdqmr"%string, 11);
  ("primme_jdqmr_etol"%string, 12);
  ("primme_steepest_descent"%string, 13);
  ("primme_lobpcg_orthobasis"%string, 14);
  ("primme_lobpcg_orthobasis_window"%string, 15);
  ("primme_n"%string, 1);
  ("primme_matrixmatvec"%string, 2);
  ("primme_matrixmatvec_type"%string, 3);
  ("primme_applypreconditioner"%string, 4);
  ("primme_applypreconditioner_type"%string, 5);
  ("primme_massmatrixmatvec"%string, 6);
  ("primme_massmatrixmatvec_type"%string, 7);
  ("primme_numprocs"%string, 8);
  ("primme_procid"%string, 9);
  ("primme_comminfo"%string, 10);
  ("primme_nlocal"%string, 11);
  ("primme_globalsumreal"%string, 12);
  ("primme_globalsumreal_type"%string, 13);
  ("primme_broadcastreal"%string, 14);
  ("primme_broadcastreal_type"%string, 15);
  ("primme_numevals"%string, 16);
  ("primme_target"%string, 17);
  ("primme_numtargetshifts"%string, 18);
  ("primme_targetshifts"%string, 19);
  ("primme_locking"%string, 20);
  ("primme_initsize"%string, 21);
  ("primme_numorthoconst"%string, 22);
  ("primme_maxbasissize"%string, 23);
  ("primme_minrestartsize"%string, 24);
  ("primme_maxblocksize"%string, 25);
  ("primme_maxmatvecs"%string, 26);
  ("primme_maxouteriterations"%string, 27);
  ("primme_iseed"%string, 28);
  ("primme_anorm"%string, 29);
  ("primme_bnorm"%string, 30);
  ("primme_invbnorm"%string, 31);
  ("primme_eps"%string, 32);
  ("primme_orth"%string, 33);
  ("primme_internalprecision"%string, 34);
  ("primme_printlevel"%string, 35);
  ("primme_outputfile"%string, 36);
  ("primme_matrix"%string, 37);
  ("primme_massmatrix"%string, 38);
  ("primme_preconditioner"%string, 39);
  ("primme_shiftforpreconditioner"%string, 40);
  ("primme_initbasismode"%string, 41);
  ("primme_projectionparams_projection"%string, 42);
  ("primme_restartingparams_maxprevretain"%string, 43);
  ("primme_correctionparams_precondition"%string, 44);
  ("primme_correctionparams_robustshifts"%string, 45);
  ("primme_correctionparams_maxinneriterations"%string, 46);
  ("primme_correctionparams_projectors_leftq"%string, 47);
  ("primme_correctionparams_projectors_leftx"%string, 48);
  ("primme_correctionparams_projectors_rightq"%string, 49);
  ("primme_correctionparams_projectors_rightx"%string, 50);
  ("primme_correctionparams_projectors_skewq"%string, 51);
  ("primme_correctionparams_projectors_skewx"%string, 52);
  ("primme_correctionparams_convtest"%string, 53);
  ("primme_correctionparams_reltolbase"%string, 54);
  ("primme_stats_numouteriterations"%string, 55);
  ("primme_stats_numrestarts"%string, 56);
  ("primme_stats_nummatvecs"%string, 57);
  ("primme_stats_numpreconds"%string, 58);
  ("primme_stats_numglobalsum"%string, 59);
  ("primme_stats_volumeglobalsum"%string, 60);
  ("primme_stats_numbroadcast"%string, 61);
  ("primme_stats_volumebroadcast"%string, 62);
  ("primme_stats_flopsdense"%string, 63);
  ("primme_stats_numorthoinnerprods"%string, 64);
  ("primme_stats_elapsedtime"%string, 65);
  ("primme_stats_timematvec"%string, 66);
  ("primme_stats_timeprecond"%string, 67);
  ("primme_stats_timeortho"%string, 68);
  ("primme_stats_timeglobalsum"%string, 69);
  ("primme_stats_timebroadcast"%string, 70);
  ("primme_stats_timedense"%string, 71);
  ("primme_stats_estimatemineval"%string, 72);
  ("primme_stats_estimatemaxeval"%string, 73);
  ("primme_stats_estimatelargestsval"%string, 74);
  ("primme_stats_estimatebnorm"%string, 75);
  ("primme_stats_estimateinvbnorm"%string, 76);
  ("primme_stats_maxconvtol"%string, 77);
  ("primme_stats_lockingissue"%string, 78);
  ("primme_dynamicmethodswitch"%string, 79);
  ("primme_convtestfun"%string, 80);
  ("primme_convtestfun_type"%string, 81);
  ("primme_convtest"%string, 82);
  ("primme_ldevecs"%string, 83);
  ("primme_ldops"%string, 84);
  ("primme_monitorfun"%string, 85);
  ("primme_monitorfun_type"%string, 86);
  ("primme_monitor"%string, 87);
  ("primme_queue"%string, 88);
  ("primme_profile"%string, 89);
  ("primme_smallest"%string, 0);
  ("primme_largest"%string, 1);
  ("primme_closest_geq"%string, 2);
  ("primme_closest_leq"%string, 3);
  ("primme_closest_abs"%string, 4);
  ("primme_largest_abs"%string, 5);
  ("primme_proj_default"%string, 0);
  ("primme_proj_rr"%string, 1);
  ("primme_proj_harmonic"%string, 2);
  ("primme_proj_refined"%string, 3);
  ("primme_init_default"%string, 0);
  ("primme_init_krylov"%string, 1);
  ("primme_init_random"%string, 2);
  ("primme_init_user"%string, 3);
  ("primme_full_ltolerance"%string, 0);
  ("primme_decreasing_ltolerance"%string, 1);
  ("primme_adaptive_etolerance"%string, 2);
  ("primme_adaptive"%string, 3);
  ("primme_event_outer_iteration"%string, 0);
  ("primme_event_inner_iteration"%string, 1);
  ("primme_event_restart"%string, 2);
  ("primme_event_reset"%string, 3);
  ("primme_event_converged"%string, 4);
  ("primme_event_locked"%string, 5);
  ("primme_op_default"%string, 0);
  ("primme_op_half"%string, 1);
  ("primme_op_float"%string, 2);
  ("primme_op_double"%string, 3);
  ("primme_op_quad"%string, 4);
  ("primme_op_int"%string, 5)
].

(** primme_eigs_f90.inc 40-185 *)
Definition f90_eigs : list (string * Z) := [
  ("primme_default_method"%string, 0);
  ("primme_dynamic"%string, 1);
  ("primme_default_min_time"%string, 2);
  ("primme_default_min_matvecs"%string, 3);
  ("primme_arnoldi"%string, 4);
  ("primme_gd"%string, 5);
  ("primme_gd_plusk"%string, 6);
  ("primme_gd_olsen_plusk"%string, 7);
  ("primme_jd_olsen_plusk"%string, 8);
  ("primme_rqi"%string, 9);
  ("primme_jdqr"%string, 10);
  ("primme_jdqmr"%string, 11);
  ("primme_jdqmr_etol"%string, 12);
  ("primme_steepest_descent"%string, 13);
  ("primme_lobpcg_orthobasis"%string, 14);
  ("primme_lobpcg_orthobasis_window"%string, 15);
  ("primme_n"%string, 1);
  ("primme_matrixmatvec"%string, 2);
  ("primme_matrixmatvec_type"%string, 3);
  ("primme_applypreconditioner"%string, 4);
  ("primme_applypreconditioner_type"%string, 5);
  ("primme_massmatrixmatvec"%string, 6);
  ("primme_massmatrixmatvec_type"%string, 7);
  ("primme_numprocs"%string, 8);
  ("primme_procid"%string, 9);
  ("primme_comminfo"%string, 10);
  ("primme_nlocal"%string, 11);
  ("primme_globalsumreal"%string, 12);
  ("primme_globalsumreal_type"%string, 13);
  ("primme_broadcastreal"%string, 14);
  ("primme_broadcastreal_type"%string, 15);
  ("primme_numevals"%string, 16);
  ("primme_target"%string, 17);
  ("primme_numtargetshifts"%string, 18);
  ("primme_targetshifts"%string, 19);
  ("primme_locking"%string, 20);
  ("primme_initsize"%string, 21);
  ("primme_numorthoconst"%string, 22);
  ("primme_maxbasissize"%string, 23);
  ("primme_minrestartsize"%string, 24);
  ("primme_maxblocksize"%string, 25);
  ("primme_maxmatvecs"%string, 26);
  ("primme_maxouteriterations"%string, 27);
  ("primme_iseed"%string, 28);
  ("primme_anorm"%string, 29);
  ("primme_bnorm"%string, 30);
  ("primme_invbnorm"%string, 31);
  ("primme_eps"%string, 32);
  ("primme_orth"%string, 33);
  ("primme_internalprecision"%string, 34);
  ("primme_printlevel"%string, 35);
  ("primme_outputfile"%string, 36);
  ("primme_matrix"%string, 37);
  ("primme_massmatrix"%string, 38);
  ("primme_preconditioner"%string, 39);
  ("primme_shiftsforpreconditioner"%string, 40);
  ("primme_initbasismode"%string, 41);
  ("primme_projectionparams_projection"%string, 42);
  ("primme_restartingparams_maxprevretain"%string, 43);
  ("primme_correctionparams_precondition"%string, 44);
  ("primme_correctionparams_robustshifts"%string, 45);
  ("primme_correctionparams_maxinneriterations"%string, 46);
  ("primme_correctionparams_projectors_leftq"%string, 47);
  ("primme_correctionparams_projectors_leftx"%string, 48);
  ("primme_correctionparams_projectors_rightq"%string, 49);
  ("primme_correctionparams_projectors_rightx"%string, 50);
  ("primme_correctionparams_projectors_skewq"%string, 51);
  ("primme_correctionparams_projectors_skewx"%string, 52);
  ("primme_correctionparams_convtest"%string, 53);
  ("primme_correctionparams_reltolbase"%string, 54);
  ("primme_stats_numouteriterations"%string, 55);
  ("primme_stats_numrestarts"%string, 56);
  ("primme_stats_nummatvecs"%string, 57);
  ("primme_stats_numpreconds"%string, 58);
  ("primme_stats_numglobalsum"%string, 59);
  ("primme_stats_volumeglobalsum"%string, 60);
  ("primme_stats_numbroadcast"%string, 61);
  ("primme_stats_volumebroadcast"%string, 62);
  ("primme_stats_flopsdense"%string, 63);
  ("primme_stats_numorthoinnerprods"%string, 64);
  ("primme_stats_elapsedtime"%string, 65);
  ("primme_stats_timematvec"%string, 66);
  ("primme_stats_timeprecond"%string, 67);
  ("primme_stats_timeortho"%string, 68);
  ("primme_stats_timeglobalsum"%string, 69);
  ("primme_stats_timebroadcast"%string, 70);
  ("primme_stats_timedense"%string, 71);
  ("primme_stats_estimatemineval"%string, 72);
  ("primme_stats_estimatemaxeval"%string, 73);
  ("primme_stats_estimatelargestsval"%string, 74);
  ("primme_stats_estimatebnorm"%string, 75);
  ("primme_stats_estimateinvbnorm"%string, 76);
  ("primme_stats_maxconvtol"%string, 77);
  ("primme_stats_lockingissue"%string, 78);
  ("primme_dynamicmethodswitch"%string, 79);
  ("primme_convtestfun"%string, 80);
  ("primme_convtestfun_type"%string, 81);
  ("primme_convtest"%string, 82);
  ("primme_ldevecs"%string, 83);
  ("primme_ldops"%string, 84);
  ("primme_monitorfun"%string, 85);
  ("primme_monitorfun_type"%string, 86);
  ("primme_monitor"%string, 87);
  ("primme_queue"%string, 88);
  ("primme_profile"%string, 89);
  ("primme_smallest"%string, 0);
  ("primme_largest"%string, 1);
  ("primme_closest_geq"%string, 2);
  ("primme_closest_leq"%string, 3);
  ("primme_closest_abs"%string, 4);
  ("primme_largest_abs"%string, 5);
  ("primme_proj_default"%string, 0);
  ("primme_proj_rr"%string, 1);
  ("primme_proj_harmonic"%string, 2);
  ("primme_proj_refined"%string, 3);
  ("primme_init_default"%string, 0);
  ("primme_init_krylov"%string, 1);
  ("primme_init_random"%string, 2);
  ("primme_init_user"%string, 3);
  ("primme_full_ltolerance"%string, 0);
  ("primme_decreasing_ltolerance"%string, 1);
  ("primme_adaptive_etolerance"%string, 2);
  ("primme_adaptive"%string, 3);
  ("primme_event_outer_iteration"%string, 0);
  ("primme_event_inner_iteration"%string, 1);
  ("primme_event_restart"%string, 2);
  ("primme_event_reset"%string, 3);
  ("primme_event_converged"%string, 4);
  ("primme_event_locked"%string, 5);
  ("primme_op_default"%string, 0);
  ("primme_op_half"%string, 1);
  ("primme_op_float"%string, 2);
  ("primme_op_double"%string, 3);
  ("primme_op_quad"%string, 4);
  ("primme_op_int"%string, 5)
].

(** primme_svds_f77.h 47-208 *)
Definition f77_svds : list (string * Z) := [
  ("primme_svds_default"%string, 0);
  ("primme_svds_hybrid"%string, 1);
  ("primme_svds_normalequations"%string, 2);
  ("primme_svds_augmented"%string, 3);
  ("primme_svds_primme"%string, 1);
  ("primme_svds_primmestage2"%string, 2);
  ("primme_svds_m"%string, 3);
  ("primme_svds_n"%string, 4);
  ("primme_svds_matrixmatvec"%string, 5);
  ("primme_svds_matrixmatvec_type"%string, 6);
  ("primme_svds_applypreconditioner"%string, 7);
  ("primme_svds_applypreconditioner_type"%string, 8);
  ("primme_svds_numprocs"%string, 9);
  ("primme_svds_procid"%string, 10);
  ("primme_svds_mlocal"%string, 11);
  ("primme_svds_nlocal"%string, 12);
  ("primme_svds_comminfo"%string, 13);
  ("primme_svds_globalsumreal"%string, 14);
  ("primme_svds_globalsumreal_type"%string, 15);
  ("primme_svds_broadcastreal"%string, 16);
  ("primme_svds_broadcastreal_type"%string, 17);
  ("primme_svds_numsvals"%string, 18);
  ("primme_svds_target"%string, 19);
  ("primme_svds_numtargetshifts"%string, 20);
  ("primme_svds_targetshifts"%string, 21);
  ("primme_svds_method"%string, 22);
  ("primme_svds_methodstage2"%string, 23);
  ("primme_svds_matrix"%string, 24);
  ("primme_svds_preconditioner"%string, 25);
  ("primme_svds_locking"%string, 26);
  ("primme_svds_numorthoconst"%string, 27);
  ("primme_svds_anorm"%string, 28);
  ("primme_svds_eps"%string, 29);
  ("primme_svds_precondition"%string, 30);
  ("primme_svds_initsize"%string, 31);
  ("primme_svds_maxbasissize"%string, 32);
  ("primme_svds_maxblocksize"%string, 33);
  ("primme_svds_maxmatvecs"%string, 34);
  ("primme_svds_iseed"%string, 35);
  ("primme_svds_printlevel"%string, 36);
  ("primme_svds_internalprecision"%string, 37);
  ("primme_svds_outputfile"%string, 38);
  ("primme_svds_stats_numouteriterations"%string, 39);
  ("primme_svds_stats_numrestarts"%string, 40);
  ("primme_svds_stats_nummatvecs"%string, 41);
  ("primme_svds_stats_numpreconds"%string, 42);
  ("primme_svds_stats_numglobalsum"%string, 43);
  ("primme_svds_stats_volumeglobalsum"%string, 44);
  ("primme_svds_stats_numbroadcast"%string, 45);
  ("primme_svds_stats_volumebroadcast"%string, 46);
  ("primme_svds_stats_numorthoinnerprods"%string, 47);
  ("primme_svds_stats_elapsedtime"%string, 48);
  ("primme_svds_stats_timematvec"%string, 49);
  ("primme_svds_stats_timeprecond"%string, 50);
  ("primme_svds_stats_timeortho"%string, 51);
  ("primme_svds_stats_timeglobalsum"%string, 52);
  ("primme_svds_stats_timebroadcast"%string, 53);
  ("primme_svds_stats_lockingissue"%string, 54);
  ("primme_svds_convtestfun"%string, 55);
  ("primme_svds_convtestfun_type"%string, 56);
  ("primme_svds_convtest"%string, 57);
  ("primme_svds_monitorfun"%string, 58);
  ("primme_svds_monitorfun_type"%string, 59);
  ("primme_svds_monitor"%string, 60);
  ("primme_svds_queue"%string, 61);
  ("primme_svds_profile"%string, 62);
  ("primme_svds_largest"%string, 0);
  ("primme_svds_smallest"%string, 1);
  ("primme_svds_closest_abs"%string, 2);
  ("primme_svds_op_none"%string, 0);
  ("primme_svds_op_ata"%string, 1);
  ("primme_svds_op_aat"%string, 2);
  ("primme_svds_op_augmented"%string, 3)
].

(** primme_svds_f90.inc 41-125 *)
Definition f90_svds : list (string * Z) := [
  ("primme_svds_default"%string, 0);
  ("primme_svds_hybrid"%string, 1);
  ("primme_svds_normalequations"%string, 2);
  ("primme_svds_augmented"%string, 3);
  ("primme_svds_primme"%string, 1);
  ("primme_svds_primmestage2"%string, 2);
  ("primme_svds_m"%string, 3);
  ("primme_svds_n"%string, 4);
  ("primme_svds_matrixmatvec"%string, 5);
  ("primme_svds_matrixmatvec_type"%string, 6);
  ("primme_svds_applypreconditioner"%string, 7);
  ("primme_svds_applypreconditioner_type"%string, 8);
  ("primme_svds_numprocs"%string, 9);
  ("primme_svds_procid"%string, 10);
  ("primme_svds_mlocal"%string, 11);
  ("primme_svds_nlocal"%string, 12);
  ("primme_svds_comminfo"%string, 13);
  ("primme_svds_globalsumreal"%string, 14);
  ("primme_svds_globalsumreal_type"%string, 15);
  ("primme_svds_broadcastreal"%string, 16);
  ("primme_svds_broadcastreal_type"%string, 17);
  ("primme_svds_numsvals"%string, 18);
  ("primme_svds_target"%string, 19);
  ("primme_svds_numtargetshifts"%string, 20);
  ("primme_svds_targetshifts"%string, 21);
  ("primme_svds_method"%string, 22);
  ("primme_svds_methodstage2"%string, 23);
  ("primme_svds_matrix"%string, 24);
  ("primme_svds_preconditioner"%string, 25);
  ("primme_svds_locking"%string, 26);
  ("primme_svds_numorthoconst"%string, 27);
  ("primme_svds_anorm"%string, 28);
  ("primme_svds_eps"%string, 29);
  ("primme_svds_precondition"%string, 30);
  ("primme_svds_initsize"%string, 31);
  ("primme_svds_maxbasissize"%string, 32);
  ("primme_svds_maxblocksize"%string, 33);
  ("primme_svds_maxmatvecs"%string, 34);
  ("primme_svds_iseed"%string, 35);
  ("primme_svds_printlevel"%string, 36);
  ("primme_svds_internalprecision"%string, 37);
  ("primme_svds_outputfile"%string, 38);
  ("primme_svds_stats_numouteriterations"%string, 39);
  ("primme_svds_stats_numrestarts"%string, 40);
  ("primme_svds_stats_nummatvecs"%string, 41);
  ("primme_svds_stats_numpreconds"%string, 42);
  ("primme_svds_stats_numglobalsum"%string, 43);
  ("primme_svds_stats_volumeglobalsum"%string, 44);
  ("primme_svds_stats_numbroadcast"%string, 45);
  ("primme_svds_stats_volumebroadcast"%string, 46);
  ("primme_svds_stats_numorthoinnerprods"%string, 47);
  ("primme_svds_stats_elapsedtime"%string, 48);
  ("primme_svds_stats_timematvec"%string, 49);
  ("primme_svds_stats_timeprecond"%string, 50);
  ("primme_svds_stats_timeortho"%string, 51);
  ("primme_svds_stats_timeglobalsum"%string, 52);
  ("primme_svds_stats_timebroadcast"%string, 53);
  ("primme_svds_stats_lockingissue"%string, 54);
  ("primme_svds_convtestfun"%string, 55);
  ("primme_svds_convtestfun_type"%string, 56);
  ("primme_svds_convtest"%string, 57);
  ("primme_svds_monitorfun"%string, 58);
  ("primme_svds_monitorfun_type"%string, 59);
  ("primme_svds_monitor"%string, 60);
  ("primme_svds_queue"%string, 61);
  ("primme_svds_profile"%string, 62);
  ("primme_svds_largest"%string, 0);
  ("primme_svds_smallest"%string, 1);
  ("primme_svds_closest_abs"%string, 2);
  ("primme_svds_op_none"%string, 0);
  ("primme_svds_op_ata"%string, 1);
  ("primme_svds_op_aat"%string, 2);
  ("primme_svds_op_augmented"%string, 3)
].

(** primme_f77.c: a Fortran program holds a pointer to the structure ([None] is NULL). *)
Definition handle (A : Type) := option A.

(** primme_initialize_f77 (70-75) and primme_svds_initialize_f77 (54-58);
    [memory]: the allocation succeeds. *)
Definition f77_initialize (memory : bool) : handle params :=
  if memory then Some (primme_initialize 1) else None.

(** primme_free_f77 (80-85): what the members own is freed, the structure too, and the
    pointer is cleared. *)
Definition f77_free (h : handle params) : handle params := None.

(** primme_set_member_f77 (125-128); [None]: a NULL pointer is followed. *)
Definition f77_set_member (h : handle params) (label : Z) (v : list Z) : option (Z * handle params) :=
  p <- h ; r <- set_member p label v ; Some (fst r, Some (snd r)).
(** primmetop_get_member_f77 (193-196); primme_get_member_f77 (157-160) is the same for the
    structure the callbacks receive. *)
Definition f77_get_member (h : handle params) (label : Z) : option (Z * list Z) :=
  p <- h ; Some (get_member p label).
(** primme_set_method_f77 (101-104) *)
Definition f77_set_method (h : handle params) (method : Z) : option (Z * handle params) :=
  p <- h ; r <- primme_set_method method p ; Some (fst r, Some (snd r)).
(** primme_get_prec_shift_f77 (168-171): [i] counts from one. *)
Definition f77_get_prec_shift {R} (shifts : list R) (i : Z) : option R :=
  if i - 1 <? 0 then None else nth_error shifts (Z.to_nat (i - 1)).

(** primme_svds_set_member_f77 (77-81) and primme_svdstop_get_member_f77 (83-87). *)
Definition f77_svds_set_member (h : handle svds) (label : Z) (v : list Z) : option (Z * handle svds) :=
  p <- h ; r <- svds_set_member p label v ; Some (fst r, Some (snd r)).
Definition f77_svds_get_member (h : handle svds) (label : Z) : option (Z * got) :=
  p <- h ; Some (svds_get_member p label).
