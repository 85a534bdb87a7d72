{
 "claims": [
  {
   "property": "C01",
   "status": "proved",
   "theorems": [
    "C01_overlap_inner_product",
    "C01_full_overlap",
    "C01_overlap_conj_full_overlap",
    "C01_overlap_conj_symmetric",
    "C01_norm_sum_of_squares",
    "C01_length_mismatch_rejected",
    "C01_dimension_mismatch_rejected"
   ],
   "note": "overlap, full_overlap and norm for every chain; argument errors included. overlap(a,b) = sum psi_a conj(psi_b), which is the conjugate of full_overlap(a,b)."
  },
  {
   "property": "C02",
   "status": "proved",
   "theorems": [
    "C02_recombine_amplitudes",
    "C02_configurations_complete",
    "C02_associative"
   ],
   "note": "recombine lists the path-sum amplitudes in row-major order."
  },
  {
   "property": "C03",
   "status": "proved",
   "theorems": [
    "C03_add_sum",
    "C03_single_site_drops_other",
    "C03_single_site_refuted"
   ],
   "note": "for two or more sites; on one site the claim is false and refuted with a witness (C03_single_site_refuted)."
  },
  {
   "property": "C04",
   "status": "proved",
   "theorems": [
    "C04_mul_scales",
    "C04_star_scales_every_site"
   ],
   "note": "mul scales by c; the * operator scales by c^L."
  },
  {
   "property": "C05",
   "status": "proved",
   "theorems": [
    "C05_apply_one_site",
    "C05_out_of_range_rejected"
   ],
   "note": "the model is functional, so 'the original is untouched' holds by construction (apply copies the list)."
  },
  {
   "property": "C06",
   "status": "proved",
   "theorems": [
    "C06_left_orthogonalise",
    "C06_left_orthogonalise_range",
    "C06_left_orthogonalise_to_the_end",
    "C06_fails_only_with_qr",
    "C06_range_fails_only_with_qr"
   ],
   "note": "full sweep and every partial range; QR is an oracle assumed correct where it answers."
  },
  {
   "property": "C07",
   "status": "proved",
   "theorems": [
    "C07_right_orthogonalise",
    "C07_right_orthogonalise_range",
    "C07_right_orthogonalise_from_the_start",
    "C07_fails_only_with_rq",
    "C07_range_fails_only_with_rq"
   ],
   "note": "mirror image of C06 with RQ."
  },
  {
   "property": "C08",
   "status": "proved",
   "theorems": [
    "C08_mixed_orthogonalise",
    "C08_scale_at_site_0_refuted",
    "C08_fails_only_with_lapack"
   ],
   "note": "every centre; at k=0 the reported norm_ is not the norm of the state (refuted with a witness)."
  },
  {
   "property": "C09",
   "status": "proved",
   "theorems": [
    "C09_E_k_mixed",
    "C09_E_k_string_mixed",
    "C09_E_k",
    "C09_E_k_string",
    "C09_E_L"
   ],
   "note": "E_k with a k-site operator or a string of one-site operators, and E_L, modelled through the ncon model; exact for blocks with isometries around them, divided by the norm otherwise"
  },
  {
   "property": "C10",
   "status": "proved",
   "theorems": [
    "C10_E_k",
    "C10_E_and_E_k_differ",
    "C10_Es",
    "C10_E_underscore_is_transposed",
    "C10_E_is_transposed",
    "C10_E_refuted",
    "C10_E_underscore_refuted",
    "C10_Es_fails_only_with_lapack"
   ],
   "note": "Es and E_k return the expectation value of op, E and E_ that of its transpose; refutations with Sy show that they differ"
  },
  {
   "property": "C11",
   "status": "proved",
   "theorems": [
    "C11_E_after_every_history",
    "C11_after_mixed_canonicalise_refuted",
    "C11_after_partial_sweep_refuted",
    "C11_after_post_select_raises",
    "C11_gate_flags_refuted"
   ],
   "note": "all histories of construct, copy, apply, mul, add, full and mixed orthogonalisation, canonicalisation, E; refuted for mixed_canonicalise(k>0) and partial sweeps; after post_select E raises"
  },
  {
   "property": "C12",
   "status": "proved",
   "theorems": [
    "C12_left_canonicalise",
    "C12_left_canonicalise_sweep_back",
    "C12_fails_only_with_lapack"
   ],
   "note": "SVD sweeps with and without a bond limit, and the gauge-fixing sweep back; assumes the eigenvectors returned for a Hermitian matrix are orthonormal with zero eigenvalues last"
  },
  {
   "property": "C13",
   "status": "proved",
   "theorems": [
    "C13_right_canonicalise",
    "C13_right_canonicalise_sweep_back",
    "C13_fails_only_with_lapack",
    "C13_unsorted_eigenvalues_refuted"
   ],
   "note": "as C12; without the ordering assumption on eig the rank cut annihilates a state (refuted theorem)"
  },
  {
   "property": "C14",
   "status": "proved",
   "theorems": [
    "C14_serialize_deserialize",
    "C14_real_encoding",
    "C14_short_vector_rejected"
   ],
   "note": "complex and real encodings, exact length, any trailing data ignored, too short a vector rejected"
  },
  {
   "property": "C15",
   "status": "proved",
   "theorems": [
    "C15_structured",
    "C15_unstructured",
    "C15_unstructured_shrunk_refuted",
    "C15_unstructured_silent_refuted"
   ],
   "note": "structured mode always; unstructured mode exactly when the shapes are those of (L,d,D); otherwise an error or a silently different state (two refuted theorems)"
  },
  {
   "property": "C16",
   "status": "proved",
   "theorems": [
    "C16_create_structure",
    "C16_no_limit_is_schmidt_bound",
    "C16_single_site_raises"
   ],
   "note": "closed form for every length from 2 on (and 0); one site raises"
  },
  {
   "property": "C17",
   "status": "proved",
   "theorems": [
    "C17_right_from_state",
    "C17_left_from_state"
   ],
   "note": "states with equal axis lengths; the recorded Ls are also proved to be Schmidt coefficients"
  },
  {
   "property": "C18",
   "status": "proved",
   "theorems": [
    "C18_factors",
    "C18_square",
    "C18_order_refuted"
   ],
   "note": ""
  },
  {
   "property": "C19",
   "status": "proved",
   "theorems": [
    "C19_qr",
    "C19_rq",
    "C19_svd",
    "C19_group",
    "C19_dimensions_refuted"
   ],
   "note": "int(n**0.5) taken as the exact integer square root"
  },
  {
   "property": "C20",
   "status": "proved",
   "theorems": [
    "C20_apply_two_site",
    "C20_swaps_exact",
    "C20_single_site",
    "C20_single_site_operator_on_two_sites",
    "C20_equal_sites"
   ],
   "note": "qubits, no truncation (D=None); int(n**0.5) exact"
  },
  {
   "property": "C21",
   "status": "proved",
   "theorems": [
    "C21_post_select_projects",
    "C21_recombine_after_post_select",
    "C21_recorded_length_refuted"
   ],
   "note": "the projected amplitudes are right; the recorded length self.L is stale, refuted with a witness and characterised for every chain."
  },
  {
   "property": "C22",
   "status": "proved",
   "theorems": [
    "C22_expand",
    "C22_expand_structure",
    "C22_expand_cannot_shrink",
    "C22_mps_pad"
   ],
   "note": "expand including its final left_canonicalise, mps_pad; shrinking raises ValueError"
  },
  {
   "property": "C23",
   "status": "proved",
   "theorems": [
    "C23_links",
    "C23_links_no_operator",
    "C23_norm_network"
   ],
   "note": "label lists of links(k) with and without operator for all k>=1; the network without operator is <psi|psi>"
  },
  {
   "property": "C24",
   "status": "proved",
   "theorems": [
    "C24_rho_mixed",
    "C24_rho",
    "C24_E_k_is_trace",
    "C24_rho_product"
   ],
   "note": "partial trace for all contiguous blocks; E_k(O)=Tr(rho O); for product states the list of one-site matrices, up to the norms of the other sites"
  },
  {
   "property": "C25",
   "status": "proved",
   "theorems": [
    "C25_pair_keys",
    "C25_triple_keys",
    "C25_memo_transparent",
    "C25_long_chain_refuted",
    "C25_christoffel_refuted"
   ],
   "note": "Memo transparent up to 11 sites and refuted beyond; christoffel's second call refuted."
  },
  {
   "property": "C26",
   "status": "proved",
   "theorems": [
    "C26_extract_import",
    "C26_import_extract",
    "C26_dims",
    "C26_order_refuted",
    "C26_count"
   ],
   "note": "chains whose sites with empty tangent space come first; the other order is refuted (import raises ValueError). numpy.linalg.cholesky, inv and scipy null_space are oracles with contracts."
  },
  {
   "property": "C27",
   "status": "proved",
   "theorems": [
    "C27_einstein_sum",
    "C27_default_orders",
    "C27_order_independent"
   ],
   "note": "ncon of ncon.py modelled completely for numpy arrays (component search, joining with trivial legs, contraction loop, traces, final transposition, set order as an oracle)"
  },
  {
   "property": "C28",
   "status": "proved",
   "theorems": [
    "C28_check_exact",
    "C28_ncon_validates",
    "C28_label_zero_refuted",
    "C28_unchecked_trace_refuted"
   ],
   "note": "the check is exact; label 0 escapes it (C28_label_zero_refuted); unchecked traces over unequal legs are silent (C28_unchecked_trace_refuted)"
  },
  {
   "property": "C29",
   "status": "proved",
   "theorems": [
    "C29_T",
    "C29_H",
    "C29_short",
    "C29_T_involution",
    "C29_H_involution",
    "C29_C_involution",
    "C29_H_is_C_of_T",
    "C29_H_product"
   ],
   "note": "T, H, C for arrays of every rank; below rank 2 IndexError"
  },
  {
   "property": "C30",
   "status": "proved",
   "theorems": [
    "C30_loc",
    "C30_loc_d",
    "C30_loc_3",
    "C30_split_up",
    "C30_split_up_kron",
    "C30_split_up_without_d",
    "C30_split_up_3",
    "C30_loc_3_order_refuted",
    "C30_split_up_doc_refuted",
    "C30_split_up_3_dim_refuted"
   ],
   "note": "loc for all rectangular shapes; loc_3 and split_up as they are (exchanged factors); documented orders refuted; split_up_3 refuted for d=3"
  },
  {
   "property": "C31",
   "status": "proved",
   "theorems": [
    "C31_partial_trace",
    "C31_trace_preserved",
    "C31_keep_all",
    "C31_keep_order",
    "C31_rhoA",
    "C31_rhoA_hermitian",
    "C31_keep_nothing"
   ],
   "note": "partial_trace and rhoA entry by entry, trace, order of keep, keep all; empty keep recorded"
  },
  {
   "property": "C32",
   "status": "proved",
   "theorems": [
    "C32_uqr",
    "C32_uqr_unique",
    "C32_urq",
    "C32_urq_unique",
    "C32_uqr_zero",
    "C32_uqr_refuted",
    "C32_urq_tall_refuted"
   ],
   "note": "uqr for all shapes and urq for non-tall input, uniqueness; rank-deficient and tall cases refuted"
  },
  {
   "property": "C33",
   "status": "proved",
   "theorems": [
    "C33_embed",
    "C33_deembed_embed",
    "C33_deembed_size",
    "C33_direct_sum",
    "C33_unitary_extension",
    "C33_requested_size_refuted"
   ],
   "note": "embed, deembed, direct_sum, unitary_extension; requested size below the isometry refuted"
  },
  {
   "property": "C34",
   "status": "proved",
   "theorems": [
    "C34_history",
    "C34_eulerint_starts_canonical",
    "C34_rk4int_starts_canonical",
    "C34_history_only_grows",
    "C34_short_grids"
   ],
   "note": "All three integrators."
  },
  {
   "property": "C35",
   "status": "proved",
   "theorems": [
    "C35_classical_step",
    "C35_taylor",
    "C35_itdvp_refuted"
   ],
   "note": "fTDVP's step proved; iTDVP's refuted."
  },
  {
   "property": "C36",
   "status": "proved",
   "theorems": [
    "C36_entries_decode",
    "C36_lengths",
    "C36_clear_refuted",
    "C36_expand_then_eulerint_refuted"
   ],
   "note": "Proved for runs without clear; clear and eulerint after expand refuted."
  },
  {
   "property": "C37",
   "status": "proved",
   "theorems": [
    "C37_run_names",
    "C37_other_names_refuted"
   ],
   "note": "First ten proved, eleventh fails."
  },
  {
   "property": "C38",
   "status": "proved",
   "theorems": [
    "C38_running_means"
   ],
   "note": "Running means."
  },
  {
   "property": "C39",
   "status": "proved",
   "theorems": [
    "C39_dense",
    "C39_adjoint_for_real_tensors",
    "C39_bad_input_raises",
    "C39_adjoint_refuted"
   ],
   "note": "mv and mvr are the dense matrix and its transpose; adjoint for real tensors; refuted for complex ones"
  },
  {
   "property": "C40",
   "status": "proved",
   "theorems": [
    "C40_dense",
    "C40_adjoint"
   ],
   "note": "dense form, adjoint action"
  },
  {
   "property": "C41",
   "status": "proved",
   "theorems": [
    "C41_n_body",
    "C41_n_body_low",
    "C41_n_body_high",
    "C41_commute",
    "C41_multiply",
    "C41_n_body_d"
   ],
   "note": "n_body for square operators, with and without d; int(log(.)) is an oracle"
  },
  {
   "property": "C42",
   "status": "proved",
   "theorems": [
    "C42_spins",
    "C42_casimir",
    "C42_weights",
    "C42_ladders",
    "C42_ladders_none",
    "C42_CR",
    "C42_CR_spins",
    "C42_paulis"
   ],
   "note": "all spins; square roots, 1/2 and i are constants with a contract, instantiated by the complex numbers over Coq's reals"
  },
  {
   "property": "C43",
   "status": "proved",
   "theorems": [
    "C43_su",
    "C43_complete"
   ],
   "note": "all N; also completeness"
  },
  {
   "property": "C44",
   "status": "proved",
   "theorems": [
    "C44_Nsphere",
    "C44_Nsphere_entries",
    "C44_gates",
    "C44_gates_unitary",
    "C44_CRy",
    "C44_levi_civita"
   ],
   "note": "all angle lists and ranks; angles enter through their cosine and sine"
  },
  {
   "property": "C45",
   "status": "proved",
   "theorems": [
    "C45_init",
    "C45_to_matrices",
    "C45_to_matrices_two",
    "C45_to_mpo",
    "C45_views_agree",
    "C45_documented",
    "C45_to_full",
    "C45_to_full_strings",
    "C45_two_sites_refuted",
    "C45_docstring_refuted"
   ],
   "note": "All dictionaries, all lengths. to_mpo, to_matrix, to_matrices, to_full and the constructor are modelled; from_matrix (always TypeError) is not. Three claims of the docstring/API are refuted with witnesses."
  },
  {
   "property": "C46",
   "status": "proved",
   "theorems": [
    "C46_group",
    "C46_roundtrip",
    "C46_errors",
    "C46_inverse"
   ],
   "note": "negative axes and reshape sizes of -1 are not modelled; an empty group raises TypeError, legs that are no partition ValueError"
  },
  {
   "property": "C47",
   "status": "proved",
   "theorems": [
    "C47_T",
    "C47_R",
    "C47_U",
    "C47_T_T",
    "C47_R_R",
    "C47_U_U",
    "C47_centre_refuted"
   ],
   "note": "states, arrays and double application for all lattices; the recorded centre of flips of non-square data-built PEPS is refuted"
  },
  {
   "property": "C48",
   "status": "proved",
   "theorems": [
    "C48_add",
    "C48_narrow",
    "C48_nonsquare_refuted"
   ],
   "note": "whenever the recorded Lx, Ly are columns and rows (random, or square data); AssertionError for recorded sides of 1; refuted for non-square PEPS built from data"
  },
  {
   "property": "C49",
   "status": "proved",
   "theorems": [
    "C49_mul",
    "C49_recombine",
    "C49_matrices"
   ],
   "note": "entries of the product operator and recombine(A*B)=recombine(A)@recombine(B) for two or more sites"
  },
  {
   "property": "C50",
   "status": "proved",
   "theorems": [
    "C50_recombine",
    "C50_rows",
    "C50_cols",
    "C50_block"
   ],
   "note": "recombine, row_contract, col_contract and contract for all lattices; a block is numbered column by column"
  },
  {
   "property": "C51",
   "status": "proved",
   "theorems": [
    "C51_is_right_canonical",
    "C51_is_left_canonical",
    "C51_is_right_env_canonical",
    "C51_is_left_env_canonical",
    "C51_is_full_rank",
    "C51_has_trace_1",
    "C51_last_site_refuted"
   ],
   "note": "Soundness and completeness for every tolerance and every absolute value satisfying the listed laws; the environment predicates are characterised for all chains and shown to ignore the last site (refutation). Broadcasting of unequal shapes is not modelled."
  },
  {
   "property": "C52",
   "status": "proved",
   "theorems": [
    "C52_symmetry",
    "C52_symmetry_error",
    "C52_involution",
    "C52_symmetrise_fixed",
    "C52_double_fixed",
    "C52_double_amplitudes",
    "C52_double_uniform",
    "C52_symmetrise_double"
   ],
   "note": "fTFD.from_fMPS, symmetry and symmetrise; reshape and transpose as in ModelNp"
  },
  {
   "property": "C53",
   "status": "proved",
   "theorems": [
    "C53_left",
    "C53_left_default",
    "C53_nondiagonal_refuted",
    "C53_right",
    "C53_right_refuted"
   ],
   "note": "left projector for diagonal real environments, which are the ones get_envs returns; refuted for non-diagonal environments; right projector: self-adjoint and orthogonal with weight r*chol(r), gauge condition refuted."
  },
  {
   "property": "C54",
   "status": "proved",
   "theorems": [
    "C54_driver_choice",
    "C54_failures"
   ],
   "note": "All outcomes."
  },
  {
   "property": "C55",
   "status": "proved",
   "theorems": [
    "C55_get_envs",
    "C55_energy",
    "C55_energy_right_canonical",
    "C55_energy_refuted"
   ],
   "note": "get_envs returns the true environments and energy the mean of <psi|h_m|psi> when all environments are diagonal; false otherwise (C55_energy_refuted: off-diagonal parts are dropped)"
  },
  {
   "property": "C56",
   "status": "proved",
   "theorems": [
    "C56_product_state_amplitudes",
    "C56_extend_tensor_product"
   ],
   "note": "product states and extend."
  },
  {
   "property": "C57",
   "status": "proved",
   "theorems": [
    "C57_constructor",
    "C57_constructor_fails",
    "C57_left_canonicalise_limit",
    "C57_right_canonicalise_limit"
   ],
   "note": "Attributes."
  },
  {
   "property": "C58",
   "status": "proved",
   "theorems": [
    "C58_itemwise_add",
    "C58_itemwise_sub",
    "C58_itemwise_mul",
    "C58_itemwise_mul_state"
   ],
   "note": "Entrywise."
  },
  {
   "property": "C59",
   "status": "proved",
   "theorems": [
    "C59_local_overlap",
    "C59_local_overlap_product",
    "C59_local_overlap_product_other"
   ],
   "note": "all three branches of local_overlap"
  },
  {
   "property": "C60",
   "status": "proved",
   "theorems": [
    "C60_null_vectors",
    "C60_complete"
   ],
   "note": "get_null_space over a full-QR oracle"
  },
  {
   "property": "C61",
   "status": "proved",
   "theorems": [
    "C61_rotate_to_hermitian"
   ],
   "note": "rotate_to_hermitian over division and square-root oracles"
  },
  {
   "property": "C62",
   "status": "proved",
   "theorems": [
    "C62_symmetrise",
    "C62_is_swap_symmetric",
    "C62_antisymmetrise_refuted",
    "C62_slambdas",
    "C62_slambdas_complete"
   ],
   "note": "swap_antisymmetrise refuted as an antisymmetriser"
  },
  {
   "property": "C63",
   "status": "proved",
   "theorems": [
    "C63_lambdas",
    "C63_lambdas_complete",
    "C63_antiferro",
    "C63_ferro",
    "C63_ferro_refuted"
   ],
   "note": "ferro refuted as a Pauli or spin triple"
  },
  {
   "property": "C64",
   "status": "proved",
   "theorems": [
    "C64_components",
    "C64_components_inverse",
    "C64_components_real",
    "C64_insu2N"
   ],
   "note": "insu2N for the three documented places"
  },
  {
   "property": "C65",
   "status": "proved",
   "theorems": [
    "C65_generator",
    "C65_unitary",
    "C65_U4",
    "C65_U4s",
    "C65_SU_2N",
    "C65_errors"
   ],
   "note": "expm is an oracle with a contract (extensional, shape, adjoint, homomorphism on commuting matrices, intertwiners); example over the complex numbers"
  },
  {
   "property": "C66",
   "status": "proved",
   "theorems": [
    "C66_extractv",
    "C66_to_new_v",
    "C66_equal_up_to_phase",
    "C66_equal_up_to_phase_refuted"
   ],
   "note": "equal_up_to_phase misses equal rays with a vanishing first entry (C66_equal_up_to_phase_refuted)"
  },
  {
   "property": "C67",
   "status": "proved",
   "theorems": [
    "C67_snake",
    "C67_snake_refuted"
   ],
   "note": "for at most one wide bond between two rows; refuted with two"
  },
  {
   "property": "C68",
   "status": "proved",
   "theorems": [
    "C68_from_mps",
    "C68_square",
    "C68_state"
   ],
   "note": "Lx>1 dividing the length"
  },
  {
   "property": "C69",
   "status": "proved",
   "theorems": [
    "C69_overlap",
    "C69_full_overlap",
    "C69_single_column_refuted"
   ],
   "note": "overlap for two or more columns (a single column fails, refuted), full_overlap always"
  },
  {
   "property": "C70",
   "status": "proved",
   "theorems": [
    "C70_apply",
    "C70_E"
   ],
   "note": "all sites and operators"
  },
  {
   "property": "C71",
   "status": "proved",
   "theorems": [
    "C71_E_k",
    "C71_reading_order_refuted"
   ],
   "note": "for the order column by column; the documented reading order is refuted"
  },
  {
   "property": "C72",
   "status": "proved",
   "theorems": [
    "C72_eigs",
    "C72_hermitian",
    "C72_pairing_for_symmetric_r",
    "C72_bond_dimension_one_raises",
    "C72_pairing_refuted"
   ],
   "note": "eigenvectors, Hermitian up to a common sign, tr(l r)=1; pairing of the layers proved for symmetric r, refuted in general; bond dimension one raises TypeError"
  },
  {
   "property": "C73",
   "status": "proved",
   "theorems": [
    "C73_vidal",
    "C73_right",
    "C73_left",
    "C73_mixed"
   ],
   "note": "given the contracts of Cholesky, SVD, inverse and Arnoldi; the mixed form has transfer eigenvalue <l|r>, which is one for symmetric r"
  },
  {
   "property": "C74",
   "status": "proved",
   "theorems": [
    "C74_default",
    "C74_right_transposed",
    "C74_left_transposed",
    "C74_mixed_transposed",
    "C74_Es",
    "C74_vidal_transposed",
    "C74_right_refuted"
   ],
   "note": "default form right; the forms r, l, m and ivMPS.E compute the transposed operator (refuted)"
  },
  {
   "property": "C75",
   "status": "proved",
   "theorems": [
    "C75_energy",
    "C75_energy_for_symmetric_r",
    "C75_energy_refuted"
   ],
   "note": "value computed is with the transposed r; right for symmetric r; refuted in general"
  },
  {
   "property": "C76",
   "status": "proved",
   "theorems": [
    "C76_right",
    "C76_left",
    "C76_right_one",
    "C76_refuted"
   ],
   "note": "what the predicates decide; right at eigenvalue one; refuted otherwise"
  },
  {
   "property": "C77",
   "status": "proved",
   "theorems": [
    "C77_serialize",
    "C77_serialize_real",
    "C77_store_load",
    "C77_init",
    "C77_call_refuted"
   ],
   "note": "round trips; 1-based access refuted"
  },
  {
   "property": "C78",
   "status": "proved",
   "theorems": [
    "C78_rates",
    "C78_gauge",
    "C78_tdvp"
   ],
   "note": "dA_dt with fullH=False; cholesky, inverse and null space are library parameters with contracts; the initial cache and the dtype are not modelled. Environments must be diagonal (see C55)."
  },
  {
   "property": "C79",
   "status": "proved",
   "theorems": [
    "C79_norm",
    "C79_energy"
   ],
   "note": "Derivatives of norm and energy along the rates of dA_dt; the integrators that use them are C34 and C35."
  },
  {
   "property": "C80",
   "status": "proved",
   "theorems": [
    "C80_right",
    "C80_left",
    "C80_right_test",
    "C80_left_test",
    "C80_test_refuted"
   ],
   "note": "Eigenvalue equations, sign, normalisation; the tests use the reciprocal eigenvalue (refuted for the eigenvalue)."
  },
  {
   "property": "C81",
   "status": "proved",
   "theorems": [
    "C81_frame",
    "C81_span",
    "C81_F2",
    "C81_default",
    "C81_norm_refuted"
   ],
   "note": "testing=False, fullH=False; envs default; the frame is orthonormal only for normalised states (C81_norm_refuted)"
  },
  {
   "property": "C82",
   "status": "proved",
   "theorems": [
    "C82_open",
    "C82_dual",
    "C82_closed",
    "C82_frame"
   ],
   "note": "christoffel with nothing closed and with the last index closed; fresh id (caches: C25)"
  },
  {
   "property": "C83",
   "status": "proved",
   "theorems": [
    "C83_add",
    "C83_sub",
    "C83_mul",
    "C83_div",
    "C83_scaled_transfer",
    "C83_copy",
    "C83_eq",
    "C83_to_iMPS",
    "C83_periods_refuted"
   ],
   "note": "allclose is a predicate given from outside; the pitfall with cells of different length is C83_periods_refuted."
  },
  {
   "property": "C84",
   "status": "proved",
   "theorems": [
    "C84_spins",
    "C84_paulis",
    "C84_ladders",
    "C84_ladders_unknown",
    "C84_sites_commute"
   ],
   "note": "C84_ladders_unknown is the AttributeError for other spins."
  },
  {
   "property": "C85",
   "status": "proved",
   "theorems": [
    "C85_product_state_overlap",
    "C85_product_states",
    "C85_append",
    "C85_from_mps",
    "C85_from_mps_column",
    "C85_apply"
   ],
   "note": "C85_apply combines from_mps with the operator product of C49, C85_from_mps_column with recombine."
  },
  {
   "property": "C86",
   "status": "proved",
   "theorems": [
    "C86_k_local",
    "C86_no_k",
    "C86_too_long"
   ],
   "note": "self and other are taken to be different objects; the error in the division oracle stands for a missing quotient."
  },
  {
   "property": "C87",
   "status": "proved",
   "theorems": [
    "C87_match_gauge"
   ],
   "note": "positive is written as X^dagger X; for an empty physical range or a chain without sites nothing is claimed beyond wf"
  },
  {
   "property": "C88",
   "status": "proved",
   "theorems": [
    "C88_entanglement_entropy"
   ],
   "note": "the argument thresh is ignored by the code; abs, log and the comparison are arbitrary functions in the theorem"
  },
  {
   "property": "C89",
   "status": "proved",
   "theorems": [
    "C89_vidal_round_trip",
    "C89_constructor_refuted",
    "C89_items",
    "C89_eq",
    "C89_ne",
    "C89_eq_length_refuted"
   ],
   "note": "C89_constructor_refuted and C89_eq_length_refuted are the negative parts; negative indices are not modelled"
  },
  {
   "property": "C90",
   "status": "proved",
   "theorems": [
    "C90_rates",
    "C90_tdvp",
    "C90_norm",
    "C90_energy",
    "C90_agrees"
   ],
   "note": "prs=None (the projectors computed by left_null_projector); self.e is not set on this path."
  },
  {
   "property": "C91",
   "status": "proved",
   "theorems": [
    "C91_edint",
    "C91_conserved",
    "C91_energies",
    "C91_ed_evs",
    "C91_terms",
    "C91_readback",
    "C91_one_state_per_time_refuted",
    "C91_filled",
    "C91_mps_evs",
    "C91_loschmidt",
    "C91_loschmidt_expand_refuted"
   ],
   "note": "expm_multiply is modelled as the exponential applied to the vector; an exception in the middle is only identified, not its half-updated object; the empty list of terms is an error value"
  },
  {
   "property": "C92",
   "status": "proved",
   "theorems": [
    "C92_shadowed",
    "C92_shadowed_locals",
    "C92_documented_refuted",
    "C92_full",
    "C92_locals",
    "C92_mpo",
    "C92_mpo_short",
    "C92_ising",
    "C92_ising_same",
    "C92_XX",
    "C92_site"
   ],
   "note": "The intended claim is refuted for the code as it stands (C92_documented_refuted, C92_shadowed, C92_shadowed_locals); the model carries which tensor is bound as a boolean, true for the code. numpy's kron of qutip objects giving a plain array is an assumption about those libraries."
  },
  {
   "property": "C93",
   "status": "proved",
   "theorems": [
    "C93_bell",
    "C93_bell_orthogonal",
    "C93_comp_z",
    "C93_comp_x",
    "C93_comp_x_orthogonal",
    "C93_comp_x_docstring",
    "C93_AKLT",
    "C93_AKLT_refuted",
    "C93_AKLT_fixed"
   ],
   "note": "LinAlgError of an oracle is passed on. bell(2) is documented 11-00 and is minus that before canonicalisation, the same state. AKLT_refuted is over the complex numbers (standard real-number axioms)."
  },
  {
   "property": "C94",
   "status": "proved",
   "theorems": [
    "C94_changebasis",
    "C94_orthogonal",
    "C94_sympmat",
    "C94_blocks"
   ],
   "note": ""
  },
  {
   "property": "C95",
   "status": "proved",
   "theorems": [
    "C95_Es",
    "C95_E",
    "C95_double",
    "C95_halves_agree",
    "C95_dynamics",
    "C95_dynamics_refuted",
    "C95_transpose_refuted"
   ],
   "note": "E with an operator of one column (broadcast) is not modelled."
  },
  {
   "property": "C96",
   "status": "proved",
   "theorems": [
    "C96_projectors",
    "C96_split",
    "C96_exchange_refuted"
   ],
   "note": "1/2 is any scalar with half + half = 1."
  },
  {
   "property": "C97",
   "status": "proved",
   "theorems": [
    "C97_right_transfer",
    "C97_right_transfer_real",
    "C97_one_step",
    "C97_right_transfer_refuted"
   ],
   "note": "The uncorrected claim is refuted by C97_right_transfer_refuted."
  },
  {
   "property": "C98",
   "status": "proved",
   "theorems": [
    "C98_rho_proj",
    "C98_rho_proj_real",
    "C98_rho_proj_none",
    "C98_rho_proj_refuted"
   ],
   "note": "The uncorrected claim is refuted by C98_rho_proj_refuted. Blocks of neighbouring sites in order; squeeze of tensors that are not vectors is reported as ValueError."
  },
  {
   "property": "C99",
   "status": "proved",
   "theorems": [
    "C99_random",
    "C99_random_product",
    "C99_random_one",
    "C99_dimension_refuted",
    "C99_centre_refuted"
   ],
   "note": "C99_dimension_refuted, C99_centre_refuted. The angles of the product state are arbitrary; how they are drawn is not modelled."
  },
  {
   "property": "C100",
   "status": "proved",
   "theorems": [
    "C100_isometry",
    "C100_same_site",
    "C100_isometry_refuted"
   ],
   "note": "C100_isometry_refuted. Proved for neighbouring sites; the swaps of distant sites are modelled but no theorem is about them."
  },
  {
   "property": "C101",
   "status": "proved",
   "theorems": [
    "C101_otoc",
    "C101_nonneg",
    "C101_start",
    "C101_conserved",
    "C101_zero",
    "C101_short",
    "C101_terms",
    "C101_refuted",
    "C101_example"
   ],
   "note": "C101_refuted: V not Hermitian"
  },
  {
   "property": "C102",
   "status": "proved",
   "theorems": [
    "C102_eulerint",
    "C102_rk4int",
    "C102_short_grids",
    "C102_loschmidts",
    "C102_no_history",
    "C102_rk4_refuted"
   ],
   "note": "C102_rk4_refuted: rk4 differs from a Runge-Kutta step on constant fields; dA_dt is a parameter"
  },
  {
   "property": "C103",
   "status": "proved",
   "theorems": [
    "C103_renyi",
    "C103_halves",
    "C103_local",
    "C103_product",
    "C103_shape",
    "C103_disentangler",
    "C103_never_returns",
    "C103_passes",
    "C103_unitary_refuted",
    "C103_restart"
   ],
   "note": "C103_unitary_refuted; C103_never_returns for max_iter < 3"
  },
  {
   "property": "C104",
   "status": "proved",
   "theorems": [
    "C104_descent",
    "C104_random",
    "C104_random_entries",
    "C104_no_iterations",
    "C104_last_energy_refuted"
   ],
   "note": "C104_last_energy_refuted; dA_dt is a parameter"
  },
  {
   "property": "C105",
   "status": "proved",
   "theorems": [
    "C105_canonicalise_then_energy",
    "C105_mps_energies",
    "C105_nothing_to_report",
    "C105_deserialize",
    "C105_deserialize_refuted"
   ],
   "note": "left_canonicalise then energy for both forms of H; one energy per stored state of a run; deserialize with a constant bond dimension; refuted: deserialize after expand"
  },
  {
   "property": "C106",
   "status": "proved",
   "theorems": [
    "C106_environments",
    "C106_matrix",
    "C106_effective",
    "C106_effective_real",
    "C106_effective_refuted",
    "C106_operator",
    "C106_operator_first",
    "C106_operator_refuted"
   ],
   "note": "In general and for the operator at sites with left bond > 1 refuted (C106_effective_refuted, C106_operator_refuted). optimize (Lanczos) and DMRG are not modelled."
  },
  {
   "property": "C107",
   "status": "proved",
   "theorems": [
    "C107_below",
    "C107_above",
    "C107_left",
    "C107_along_row",
    "C107_along_column",
    "C107_lossless",
    "C107_border",
    "C107_fix_neighbours",
    "C107_fix_neighbours_refuted",
    "C107_left_refuted"
   ],
   "note": "C107_fix_neighbours_refuted and C107_left_refuted: Lx is rows in one constructor and columns in the other."
  },
  {
   "property": "C108",
   "status": "proved",
   "theorems": [
    "C108_transpose_ud",
    "C108_matrix",
    "C108_mirror",
    "C108_mirror_refuted",
    "C108_rotate",
    "C108_random",
    "C108_random_refuted",
    "C108_trivial"
   ],
   "note": "C108_mirror_refuted, C108_random_refuted: what a single step or one site does not give."
  }
 ]
}