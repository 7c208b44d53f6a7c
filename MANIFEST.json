{"claims": [
{"property": "C01", "status": "proved", "theorems": ["array_history", "array_history_straight", "array_reach_view"], "note": "Adaptive client programs over any number of arrays, with allocation and element construction failing at arbitrary points; trivially copyable T."},
{"property": "C02", "status": "proved", "theorems": ["array_blocks_owned", "array_no_leak", "array_history"], "note": "A wrong or double deallocation is undefined behaviour in the model, which array_history excludes."},
{"property": "C03", "status": "proved", "theorems": ["array_size_le_capacity", "array_reserve", "array_resize", "array_clear", "array_pop_back", "array_copy_construct"], "note": "Trivially copyable T."},
{"property": "C04", "status": "proved", "theorems": ["array_no_realloc", "array_push_amortised", "array_push_amortised_empty"], "note": "Trivially copyable T."},
{"property": "C05", "status": "proved", "theorems": ["array_insert", "array_push_back", "array_emplace_back"], "note": "Values not stored in the array; see C13 for own elements."},
{"property": "C06", "status": "proved", "theorems": ["array_insert_range", "array_push_back_range"], "note": "Source range outside the array."},
{"property": "C07", "status": "proved", "theorems": ["array_erase", "array_erase_range"], "note": "Trivially copyable T."},
{"property": "C08", "status": "proved", "theorems": ["array_copy_construct", "array_copy_assign", "array_independent"], "note": ""},
{"property": "C09", "status": "proved", "theorems": ["array_swap", "array_move_construct", "array_move_assign", "array_self_move", "array_copy_assign"], "note": "array_copy_assign covers i = j."},
{"property": "C10", "status": "proved", "theorems": ["array_fill_throw", "array_push_throw", "array_push_back", "array_emplace_back", "array_push_back_range", "array_insert_range"], "note": "array_fill_throw and array_push_throw hold for every T; the others for trivially copyable T constructed from values whose conversion may throw."},
{"property": "C11", "status": "partial", "theorems": ["array_range_throw_partial", "array_range_throw_exact", "uninitialized_copy", "array_range_throw_refuted"], "note": "False of the code for element types whose copy may throw: the handler in uninitialized.hpp:20 mixes source and destination iterators. The partial theorem covers allocation failure and non-throwing copies."},
{"property": "C12", "status": "partial", "theorems": ["array_nontrivial_gentle_partial", "array_nontrivial_exact", "array_grow_nontrivial_refuted", "array_reserve_nontrivial_refuted", "array_erase_nontrivial_refuted", "array_insert_nontrivial_refuted", "array_insert_throw_refuted"], "note": "False of the code: growth, middle erase and reallocating insert assign to raw or destroyed memory, and the handler of the reallocating insert destroys an element that was never constructed. The partial theorem covers all histories without relocation. array_nontrivial_exact shows that when nothing throws these are exactly the histories that work; every other one assigns to an object that is not alive."},
{"property": "C13", "status": "partial", "theorems": ["array_push_own_partial", "array_push_own_full", "array_insert_own_partial", "array_insert_own_after", "array_push_own_refuted", "array_insert_own_refuted"], "note": "False of the code for push_back on a full array (use after free) and for in-place insert before the referenced element (wrong value)."},
{"property": "C14", "status": "proved", "theorems": ["array_access", "array_data"], "note": ""},
{"property": "C15", "status": "proved", "theorems": ["list_history", "list_history_straight", "list_step", "list_reach_view"], "note": "Client programs may catch every exception and branch on every result."},
{"property": "C16", "status": "proved", "theorems": ["list_iterators", "list_deref"], "note": ""},
{"property": "C17", "status": "proved", "theorems": ["list_reverse"], "note": ""},
{"property": "C18", "status": "proved", "theorems": ["list_assign", "list_copy_assign", "list_self_assign"], "note": ""},
{"property": "C19", "status": "proved", "theorems": ["list_erase_range", "list_erase_after", "list_pop_front", "list_clear"], "note": ""},
{"property": "C20", "status": "proved", "theorems": ["list_nodes_owned", "list_no_leak", "list_erase_range", "list_clear", "list_move_assign"], "note": "Double free, use after free and destroying a dead element are UB outcomes, excluded by list_history."},
{"property": "C21", "status": "partial", "theorems": ["list_insert_after", "list_push_front", "list_insert_range", "list_ctor_throw_partial", "list_ctor_throw_refuted"], "note": "Insertions have the strong guarantee. False of the code for constructors: they leak the nodes built before the exception; the partial theorem says exactly which."},
{"property": "C22", "status": "proved", "theorems": ["list_move_construct", "list_move_assign", "list_self_move"], "note": ""},
{"property": "C23", "status": "proved", "theorems": ["heap_front_max", "heap_history", "heap_front_needs_order"], "note": "Any strict weak order; histories include copies, moves, range constructors and failing allocations; trivially copyable T (see C12)."},
{"property": "C24", "status": "proved", "theorems": ["heap_push", "heap_pop", "heap_history"], "note": "Any comparator whatsoever; values not stored in the heap itself (heap_push_own_refuted: push(front()) on a full heap is a use after free)."},
{"property": "C25", "status": "proved", "theorems": ["heap_drain_sorted"], "note": ""},
{"property": "C26", "status": "proved", "theorems": ["heap_push", "heap_pop", "heap_history", "heap_pop_empty", "heap_no_leak"], "note": "Out-of-range accesses are UB and missing fuel is an error in the model; both are excluded. Comparisons are counted by the model."},
{"property": "C27", "status": "proved", "theorems": ["spsc_fifo", "spsc_fifo_prefix", "spsc_contents", "spsc_consume_oldest"], "note": "Release/acquire view semantics with arbitrary permitted stale reads; no load buffering. pop() removes without looking. A callback that moves the element out and then throws leaves a moved-from element, which the statement accounts for."},
{"property": "C28", "status": "proved", "theorems": ["spsc_safe"], "note": "Race is an outcome of the model for every slot access not ordered after the other thread's last access of that slot; all accesses count as conflicting."},
{"property": "C29", "status": "proved", "theorems": ["spsc_safe", "spsc_live", "spsc_destroy"], "note": "Constructing over a live element, reading or destroying a dead one are outcomes of the model."},
{"property": "C30", "status": "proved", "theorems": ["spsc_capacity", "spsc_push_false", "spsc_push_true", "spsc_push_full", "spsc_push_room"], "note": ""},
{"property": "C31", "status": "proved", "theorems": ["spsc_counts_range", "spsc_read_available_le", "spsc_write_available_le", "spsc_room", "spsc_safe", "spsc_read_available_exact", "spsc_write_available_exact"], "note": "That the consumer may act on read_available is spsc_safe, whose hypothesis is exactly that credit."},
{"property": "C32", "status": "proved", "theorems": ["spsc_wait_free"], "note": "Seven of its own steps, counting the call itself and a possible assertion."},
{"property": "C33", "status": "proved", "theorems": ["spsc_emplace_throws", "spsc_consume_throws", "spsc_safe", "spsc_results"], "note": "If the callback moved the element out before throwing, the element stays in the queue moved-from."},
{"property": "C34", "status": "proved", "theorems": ["spsc_next_cycle", "spsc_next_not_pow2", "spsc_capacity_6_refuted"], "note": "Every power of two works; for every other capacity the indices repeat early; a capacity-6 execution reaches undefined behaviour."},
{"property": "C35", "status": "proved", "theorems": ["find_int"], "note": ""},
{"property": "C36", "status": "partial", "theorems": ["find_int", "find_slack", "find_unaligned_refuted", "find_past_end_refuted", "find_top_refuted"], "note": "Reads stay inside the range whenever the outcome is defined; refuted for ranges that are not vector-aligned, and under the C++ rule for pointer arithmetic when the allocation ends less than one vector after the range."},
{"property": "C37", "status": "partial", "theorems": ["find_bitwise_partial", "find_float_partial", "find_zero_refuted", "find_nan_refuted"], "note": "Holds for every type and value whose == is equality of bytes, in particular every float except zeros and NaNs; refuted for those."},
{"property": "C38", "status": "proved", "theorems": ["reverse_bytes"], "note": ""},
{"property": "C39", "status": "partial", "theorems": ["reverse_pairs_partial", "reverse_pairs_middle", "reverse_pairs_refuted"], "note": "The two-byte SIMD step is empty: refuted from 16 elements on; holds below that and without SIMD."},
{"property": "C40", "status": "proved", "theorems": ["has_single_bit_pow2", "to_unsigned_range", "to_unsigned_inj"], "note": ""},
{"property": "C41", "status": "proved", "theorems": ["view_get", "view_front_back", "view_extent", "view_subview", "view_subview_static", "view_first", "view_last", "view_compose", "view_first_last_sub", "view_set", "view_construct", "view_default", "view_default_empty"], "note": ""},
{"property": "C42", "status": "partial", "theorems": ["view_reject_partial", "view_reject_first_last", "view_reject_static", "view_subview_refuted", "view_subview_static_refuted"], "note": "False of the code: offset + count is computed modulo 2^64, so subview(2^64 - 1, 2) passes the assertion. The partial theorem covers all requests whose sum does not wrap; first and last always reject."},
{"property": "C43", "status": "proved", "theorems": ["view_as_bytes", "view_write_byte"], "note": ""},
{"property": "C44", "status": "proved", "theorems": ["reverse_iterator_laws", "reverse_number_minus", "reverse_iterator_visits", "reverse_array_values"], "note": "For every underlying iterator that satisfies the bidirectional (random access) requirements."},
{"property": "C45", "status": "partial", "theorems": ["reverse_order_partial", "reverse_order_refuted"], "note": "False of the code: the defaulted operator<=> compares the underlying iterators, which gives the opposite order. The partial theorem says exactly that, and that == is right."},
{"property": "C46", "status": "proved", "theorems": ["array_iterator_laws", "const_iterator_laws", "const_iterator_compare"], "note": "Differences and orderings between iterators of the same range; n - it of Array::Iterator does not compile when used."},
{"property": "C47", "status": "partial", "theorems": ["delegate_history_partial", "delegate_ledger_partial", "delegate_destroyed_once_partial", "delegate_assign_terminates", "delegate_pinned_refuted"], "note": "Holds for all functors that are stored on the heap or may be moved by memcpy; moving a delegate copies the bytes of an inline functor, which is refuted for inline functors that are not trivially relocatable. Assigning a functor whose construction throws terminates (noexcept)."},
{"property": "C48", "status": "partial", "theorems": ["delegate_history_partial", "delegate_call_partial", "delegate_given_partial", "delegate_pinned_refuted"], "note": "Same restriction as C47."},
{"property": "C49", "status": "partial", "theorems": ["delegate_handle_partial", "delegate_handle_refuted"], "note": "False of the code for functors stored on the heap: handle returns the address of the storage, which holds a pointer to the functor."},
{"property": "C50", "status": "proved", "theorems": ["bind_front_call", "bind_back_call", "bind_nested"], "note": "bind_front(f, ...) and bind_back(f, ...); the templates bindFront<f> and bindBack<f> do not compile (they name xme::forwardLike)."},
{"property": "C51", "status": "proved", "theorems": ["scoped_delegate_runs", "scoped_delegate_log", "scoped_delegate_throws"], "note": "A callable that throws in the noexcept destructor ends the program."},
{"property": "C52", "status": "proved", "theorems": ["tuple_cat_concat"], "note": ""},
{"property": "C53", "status": "proved", "theorems": ["tuple_make", "tuple_tie", "tuple_get", "tuple_read_write", "tuple_assign", "tuple_swap", "tuple_swap_self", "tuple_assign_self", "tuple_apply", "tuple_convert", "pair_access", "pair_make", "pair_assign_copies", "pair_swap_exchanges", "pair_apply_order"], "note": "Assignment and swap between tuples whose elements are different objects; elements of type X&& are left out."},
{"property": "C54", "status": "proved", "theorems": ["tuple_equality", "tuple_compare", "tuple_compare_total", "pair_equality", "pair_compare"], "note": ""},
{"property": "C75", "status": "partial", "theorems": ["reverse_mixed_partial", "reverse_mixed_refuted", "reverse_mixed_order_partial", "reverse_mixed_order_refuted"], "note": "False of the code at rend(): both operands are moved one element back first, which leaves the array. The orderings compare addresses and so are the opposite of the order of the positions."},
{"property": "C72", "status": "proved", "theorems": ["list_insert_own"], "note": ""},
{"property": "C73", "status": "proved", "theorems": ["reverse_nosimd", "reverse_twice"], "note": ""},
{"property": "C74", "status": "proved", "theorems": ["find_slack"], "note": ""},
{"property": "C55", "status": "proved", "theorems": ["vector_op_componentwise", "vector_op_scalar_componentwise", "vector_neg_componentwise", "vector_self_op_componentwise", "vector_self_op_scalar_componentwise", "vector_self_op_alias", "vector_assign_componentwise", "vector_index"], "note": ""},
{"property": "C56", "status": "proved", "theorems": ["dot_value", "dot_symmetric", "dot_bilinear", "cross_orthogonal", "cross_antisymmetric", "cross_lagrange", "cross_basis", "cross_linear", "cross_parallel"], "note": "Over every commutative ring; the last over the real numbers."},
{"property": "C57", "status": "proved", "theorems": ["length_euclidean", "distance_euclidean", "distance_metric", "normalize_unit", "reflect_unit_normal"], "note": "Over the reals, without rounding."},
{"property": "C66", "status": "proved", "theorems": ["lerp_affine", "lerp_endpoints", "lerp_between", "lerp_ring", "lerp_per_component", "lerp_bool_selects", "mix_interpolates", "mix_selects", "sign_real", "sign_integer", "sign_vector"], "note": "Over the reals and, for the exact formula, every commutative ring; an unsigned parameter is C78."},
{"property": "C67", "status": "partial", "theorems": ["faceforward_partial", "faceforward_refuted"], "note": "False of the code when dot(i, n) is 0: it returns -v. The partial theorem gives the result in all cases."},
{"property": "C76", "status": "proved", "theorems": ["vector_fill", "vector_from_components", "vector_from_parts", "vector_convert"], "note": ""},
{"property": "C78", "status": "partial", "theorems": ["lerp_unsigned_partial", "lerp_unsigned_refuted"], "note": "False of the code for p >= 2: 1 - p wraps around in the unsigned type. The partial theorem covers p = 0 and p = 1."},
{"property": "C58", "status": "proved", "theorems": ["matrix_product", "matrix_vector_product", "matrix_diagonal", "matrix_default", "matrix_of_3x3", "matrix_product_associative", "matrix_product_distributes", "matrix_product_identity", "matrix_vector_associative"], "note": "Over every commutative ring."},
{"property": "C59", "status": "proved", "theorems": ["matrix_transpose", "matrix_outer_product", "matrix_hadamard_product", "matrix_row", "matrix_column", "matrix_transpose_product"], "note": ""},
{"property": "C60", "status": "proved", "theorems": ["determinant_laplace", "determinant_multiplicative", "determinant_transpose", "determinant_identity"], "note": "Over every commutative ring."},
{"property": "C61", "status": "proved", "theorems": ["translate_product", "scale_product", "rotate_product", "translation_point", "scaling_point", "rotation_point", "rotation_orthogonal", "rotation_determinant", "rotation_axis", "rotate_angles_add", "rotate_zero", "transform_determinant"], "note": "Over the reals, without rounding; the axis is a unit vector."},
{"property": "C62", "status": "partial", "theorems": ["rotate_integer_axis_partial", "rotate_integer_axis_refuted"], "note": "False of the code: (1 - cos) is converted to the integer element type of the axis. The partial theorem covers angles where 1 - cos is an integer."},
{"property": "C63", "status": "proved", "theorems": ["perspective_fov_projection", "perspective_depth", "perspective_default", "perspective_lh_setting_projection"], "note": "Over the reals, without rounding."},
{"property": "C64", "status": "partial", "theorems": ["frustum_partial", "frustum_refuted", "frustum_default", "frustum_projection", "ortho_projection", "ortho_partial", "ortho_refuted", "perspective_lh_setting_refuted"], "note": "False of the code for volumes that are not symmetric about the view axis and for the left-handed setting."},
{"property": "C65", "status": "proved", "theorems": ["quaternion_sum", "quaternion_ring", "quaternion_units", "quaternion_norm", "quaternion_division"], "note": "Over every commutative ring; the last over the real numbers."},
{"property": "C68", "status": "proved", "theorems": ["radians_degrees_inverse", "radians_180", "radians_linear", "radians_library_pi", "reciprocal_trigonometry", "inverse_trigonometry", "constants_pi", "constants_e", "constants_log", "constants_roots", "constants_cbrt_two", "constants_phi", "constants_plastic"], "note": "zeta(2) and zeta(4) are compared with their closed forms here and with their series under C80."},
{"property": "C77", "status": "proved", "theorems": ["vector_eq", "vector_compare", "matrix_eq", "matrix_compare", "quaternion_eq", "quaternion_compare"], "note": ""},
{"property": "C79", "status": "proved", "theorems": ["matrix_op_entrywise", "matrix_op_scalar_entrywise", "matrix_neg_entrywise", "matrix_assign_entrywise"], "note": ""},
{"property": "C69", "status": "partial", "theorems": ["library_balanced_partial", "library_closed_once_partial", "library_is_open_partial", "library_double_close_refuted", "library_steals_refuted", "library_leak_refuted"], "note": "False of the code: close() keeps the pointer, so the destructor closes again, and open() on an open object forgets the old handle. The partial theorems cover all other histories."},
{"property": "C70", "status": "partial", "theorems": ["environment_set_get_partial", "environment_secure", "environment_substring_refuted", "environment_value_refuted", "environment_unterminated_refuted", "environment_equals_refuted", "environment_invalid_ignored"], "note": "False of the code for views that do not end at a NUL and for names with '='. The partial theorem covers all others."},
{"property": "C71", "status": "proved", "theorems": ["simd_enabled_levels", "simd_enabled_mask", "simd_enabled_none", "simd_mask_bits", "simd_mask_range", "simd_supported_bits", "simd_operators", "simd_query"], "note": ""},
{"property": "C80", "status": "proved", "theorems": ["constants_inv_fibonacci", "constants_gauss", "constants_zeta_two", "constants_zeta_three", "constants_zeta_four", "constants_catalan", "constants_euler"], "note": "Correct to one unit of the last digit. The conversion of the literals to a floating-point type is the subject of another property."},
{"property": "C81", "status": "partial", "theorems": ["simd_requests_partial", "simd_requests_refuted"], "note": "False of the code: -D gives the macro the contents 1 and the header defines it again as empty. The partial theorem says exactly when."},
{"property": "C82", "status": "partial", "theorems": ["simd_find_available_partial", "simd_find_available_refuted", "simd_reverse_available_partial", "simd_reverse_available_refuted"], "note": "False of the code: SSE2 selects an SSE4.1 instruction for 8-byte elements, SSE3 selects SSSE3 instructions."},
{"property": "C83", "status": "proved", "theorems": ["constants_nearest"], "note": "The exponent range is not modelled: all constants lie between 0.1 and 24."},
{"property": "C84", "status": "proved", "theorems": ["dot_float_error", "dot_float_finite", "dot_float_symmetric", "length_float_error", "distance_float_error"], "note": "Round to nearest, no fused operations; all NaNs are identified."},
{"property": "C85", "status": "partial", "theorems": ["normalize_float_partial", "normalize_float32_partial", "normalize_float_large_refuted", "normalize_float_small_refuted"], "note": "False of the code when the sum of squares overflows or underflows (2^70 or 2^-100 in float). The partial theorems cover the range in between, for every format and spelled out for float."},
{"property": "C86", "status": "proved", "theorems": ["lerp_float_ends", "lerp_float_error"], "note": "The ends are equal as numbers (a negative zero may become zero). The parameter has the element type."},
{"property": "C87", "status": "partial", "theorems": ["lerp_float_same_partial", "lerp_float_same_refuted"], "note": "False of the code: lerp((3,3), (3,3), 0.1f) is one unit below 3. The partial theorem bounds the error."},
{"property": "C88", "status": "partial", "theorems": ["class_layout", "aligned_data_address", "aligned_data_size", "aligned_data_object_partial", "aligned_data_object_refuted"], "note": "The last part is false: an Align below alignof(T) is accepted, and then a T in the storage can be misaligned."},
{"property": "C89", "status": "partial", "theorems": ["aligned_data_construct", "aligned_data_default", "aligned_data_copy_partial", "aligned_data_copy_refuted", "aligned_data_destroy_refuted"], "note": "False for a non-const lvalue original, which goes to the forwarding constructor, and for destruction: there is no destructor."},
{"property": "C90", "status": "proved", "theorems": ["class_layout", "node_layout"], "note": ""},
{"property": "C91", "status": "proved", "theorems": ["queue_index_lines", "queue_layout", "queue_slots"], "note": ""},
{"property": "C92", "status": "partial", "theorems": ["queue_pointer_partial", "queue_pointer_refuted"], "note": "False from index 2 on: the pointer is formed from the storage of element 0."},
{"property": "C93", "status": "partial", "theorems": ["architecture_macros", "architecture_arm_refuted"], "note": "False for 64 bit ARM, whose macros are not looked at."},
{"property": "C94", "status": "proved", "theorems": ["compiler_macros", "setup_macros"], "note": ""},
{"property": "C95", "status": "partial", "theorems": ["std_library_partial", "std_library_refuted"], "note": "False for libc++: its macro is misspelt in the header."},
{"property": "C96", "status": "partial", "theorems": ["platform_flags", "platform_export_partial", "platform_export_refuted"], "note": "False on macOS, where the export macros are missing."},
{"property": "C97", "status": "partial", "theorems": ["shared_library_platform_partial", "shared_library_platform_refuted", "environment_platform_partial", "environment_platform_refuted"], "note": "False on Windows and macOS."},
{"property": "C98", "status": "partial", "theorems": ["int_op_wraps_partial", "int_op_scalar_wraps_partial", "int_self_op", "int_neg_wraps", "int_div", "int_dot_wraps_partial", "int_dot_symmetric", "int_cross_wraps_partial", "int_cross_self", "int_reflect_wraps_partial", "int_reflect_bool", "int_reflect_bool_refuted", "int_faceforward_unsigned", "int_op_wraps_refuted"], "note": "Proved for all these types except products of 16 bit unsigned numbers: they are computed in int and overflow, int_op_wraps_refuted (65535 * 65535), and reflect for bool, where the factor 2 becomes true; int_reflect_bool says what it computes."},
{"property": "C99", "status": "proved", "theorems": ["int_op_signed", "int_op_scalar_signed", "int_self_op", "int_neg_signed", "int_dot_signed", "int_cross_signed", "int_cross_self", "int_reflect_signed", "int_faceforward_signed", "int_sign_values"], "note": "Both directions for the operators, the dot and the cross product; for reflect: if it is defined, it is exact."},
{"property": "C100", "status": "partial", "theorems": ["int_length2_partial", "int_length3_partial", "int_length4_partial", "int_lengthn_partial", "int_length_bool", "int_lengthn_refuted", "int_length_refuted"], "note": "Proved if the sum of the squares fits the promoted type (for sizes other than 2, 3 and 4: the element type) and is below 2^52. Refuted in general: the sum wraps to 0 for a vector of five unsigned chars, overflows for int, the length does not fit T, and from 2^52 on the root is rounded up."},
{"property": "C101", "status": "proved", "theorems": ["forward_like_std"], "note": "Arrays, member pointers and bit-fields are left out of the model of types."},
{"property": "C102", "status": "partial", "theorems": ["get_type_partial", "get_type_explicit_partial", "get_type_refuted", "get_type_explicit_refuted"], "note": "Exact without explicit object parameters for everything except const rvalues (get gives an lvalue) and elements X&& of rvalues (ill-formed). With explicit object parameters the same holds for pairs and tuples with one element; with two or more elements the member lookup is ambiguous, so that no element can be accessed."},
{"property": "C103", "status": "partial", "theorems": ["arithmetic_concepts", "arithmetic_exact", "arithmetic_bool", "arithmetic_qualifiers", "scoped_enum", "initializer_list_partial", "initializer_list_refuted", "different_from", "different_from_self"], "note": "is_initializer_list does not tell const initializer lists; everything else holds."},
{"property": "C104", "status": "partial", "theorems": ["tuple_element_partial", "tuple_element_refuted", "pair_element_types"], "note": "Holds for references, classes and objects without cv-qualifiers; a const scalar or enumeration loses its const, since the type is taken from a call."},
{"property": "C105", "status": "partial", "theorems": ["tuple_cat_types_partial", "tuple_cat_types_refuted", "tuple_cat_explicit_refuted", "tuple_cat_explicit_partial"], "note": "Proved for lvalues and const lvalues without explicit object parameters. A non-empty tuple that is an rvalue makes the call ill-formed, and so do two tuples with explicit object parameters."},
{"property": "C106", "status": "partial", "theorems": ["assign_objects_partial", "assign_other", "assign_pair_references", "assign_references_refuted"], "note": "Proved for elements that are objects and not const, and for sources of another type. Tuples of references of the same type cannot be assigned (tie(a, b) = tie(c, d) is ill-formed); pairs of references only fail for a const lvalue."},
{"property": "C107", "status": "proved", "theorems": ["guarded_constructor", "const_iterator_constructor", "const_iterator_template"], "note": "For ConstIterator: if it does not convert to the underlying iterator, which has no such constructor."},
{"property": "C108", "status": "proved", "theorems": ["op_float_nearest", "op_scalar_float_nearest", "neg_float"], "note": "IEEE arithmetic from Flocq; every operation rounds to the element type."},
{"property": "C109", "status": "proved", "theorems": ["neg_float", "add_float_commutes", "sub_float_add_neg", "length_float_neg", "distance_float_symmetric", "transpose_product_float", "sub_float_antisymmetric", "sub_float_self", "dot_float_neg", "cross_float_antisymmetric"], "note": "All NaNs are one value in the model."},
{"property": "C110", "status": "proved", "theorems": ["cross_float_error", "mat_vec_float_error", "mat_mul_float_error", "identity_float"], "note": ""},
{"property": "C111", "status": "proved", "theorems": ["eq_float", "eq_float_self", "compare_float", "sign_float"], "note": ""},
{"property": "C112", "status": "proved", "theorems": ["radians_float_error", "radians_float32", "radians_float64", "degrees_float_error"], "note": "For a long double of 64 bits in the definition of pi_v; the error bound of the general theorems holds for every constant within one unit of roundoff of pi."},
{"property": "C113", "status": "proved", "theorems": ["tuple_swap_exact", "pair_swap_exact", "apply_exact", "make_pair_exact", "bind_back_ctor_exact", "bind_call_exact", "bind_call_index_exact", "make_tuple_propagates"], "note": "Calls of bound functions: for wrappers that are not const rvalues, see C114. Destructors are taken not to throw."},
{"property": "C114", "status": "partial", "theorems": ["delegate_ctor_propagates", "algorithms_end", "heap_push_ends", "heap_pop_ends", "pair_assign_partial", "bind_front_ctor_partial", "compare_ends", "bind_special_ends", "functor_ends", "pair_assign_refuted", "bind_front_ctor_refuted", "bind_call_const_rvalue_refuted"], "note": "Holds for constructing a Delegate, find over iterators, the storage and construction part of Heap::push, bind_front of rvalues and non-const lvalues. Refuted, with the exact condition under which std::terminate is called: Heap::pop and the sifting of push, comparisons of tuples and pairs, copies of bound functions, ScopedDelegate, AlignedData, assignment to a Delegate, find over a range, reverse, Pair assignment from types with a noexcept swap, bind_front of const arguments, const rvalue calls of bound functions."},
{"property": "C115", "status": "proved", "theorems": ["array_noexcept", "list_noexcept"], "note": "Element destructors are taken not to throw."},
{"property": "C116", "status": "partial", "theorems": ["list_ctor_throw_partial", "list_assign_nodes", "list_insert_nodes_partial", "list_insert_nodes_diverges", "list_insert_nodes_refuted"], "note": "Proved for construction and assignment, self-assignment of a subrange included, and for insertion at a position outside the range. Refuted for insert_after at an element of the range: the loop appends in front of its own end and never returns."},
{"property": "C117", "status": "partial", "theorems": ["array_alloc_partial", "array_swap_accepted", "array_insert_range_wrong", "array_alloc_refuted"], "note": "Proved for all clients and allocators, except range insertions that have to grow an array whose allocator is not interchangeable with a default constructed one. Refuted for those: insert(pos, first, last) allocates with a default constructed allocator and exchanges the memory without the allocators."},
{"property": "C118", "status": "partial", "theorems": ["array_keeps_allocator_partial", "array_keeps_allocator_refuted"], "note": "Proved: only assignment and swap change an allocator, and only if it propagates on swap. Refuted for assignment from an initializer list, which replaces the allocator by a default constructed one."},
{"property": "C119", "status": "partial", "theorems": ["list_alloc_partial", "list_move_wrong", "list_move_assign_wrong", "list_alloc_refuted"], "note": "Proved if default constructed allocators are interchangeable, and otherwise as long as no list with elements is moved. Refuted for moves in the latter case: the nodes change owner, the allocator does not."},
{"property": "C120", "status": "partial", "theorems": ["array_push_input_partial", "array_insert_input_partial", "array_push_input_lost", "array_insert_input_lost", "array_push_input_refuted", "array_insert_input_refuted"], "note": "Proved for multi-pass iterators and for ranges whose size is known. Refuted for single-pass ranges of unknown size (std::istream_iterator, views of streams): the distance is counted by running through the range, so all elements but the one the iterator holds are lost, and insert leaves places that were never constructed. What happens is stated exactly."},
{"property": "C121", "status": "proved", "theorems": ["list_insert_input", "list_assign_input", "list_ctor_input", "heap_ctor_input"], "note": "Iterators are multi-pass, single-pass with a cached element, or single-pass without; iterators themselves do not throw."},
{"property": "C122", "status": "partial", "theorems": ["functions_compile_exact", "list_functions_compile", "list_range_functions_total", "array_functions_compile_partial", "array_ctor_range_exact", "heap_functions_compile", "algorithms_compile_partial", "accepted_ranges_compile_refuted"], "note": "False of the code: Array constructors accept every range but compile only for iterators comparable with a T* (their handler destroys from the source iterator to the destination pointer); several functions copy iterators that may be move-only; Heap(range) asks for a size that it does not require; find and reverse do not compile for some element sizes with SIMD. The partial theorems say which ranges do compile; types are described by the facts the code asks for."},
{"property": "C123", "status": "partial", "theorems": ["const_iterator_read_only", "constant_iterator_exact", "const_iterator_keeps_level", "const_iterator_idempotent", "const_iterator_total_refuted"], "note": "Read-only access is proved for all iterators, the concepts for forward iterators and stronger ones. Refuted for single-pass iterators (the result has no i++ and is no iterator), for iterators without an iterator_category, and for the conversion ConstIterator<T*> to ConstIterator<const T*>, which is offered but does not compile. Element types are the value type of the iterator, without volatile."},
{"property": "C124", "status": "partial", "theorems": ["include_order_exact", "headers_any_order_partial", "header_alone_partial", "headers_any_order_refuted"], "note": "False of the code: namespace xme::ranges, declared by ranges/*.hpp and so by array.hpp, hides ::ranges for array_view.hpp and linked_list.hpp, which write ranges::x for it. container.hpp and spsc_queue.hpp therefore do not compile on their own. include_order_exact characterises the orders that compile. Headers of std, range-v3 and the platform are left out."},
{"property": "C125", "status": "proved", "theorems": ["include_names_declared"], "note": "Names that a header takes from another header of the library, as listed in IncludeModel; names of std and range-v3 are left out, and so are sections for __cpp_explicit_this_parameter (bind.hpp uses xme::forwardLike there, which does not exist)."},
{"property": "C126", "status": "partial", "theorems": ["modules_export_partial", "modules_export_refuted"], "note": "xme.container does not compile, for the reason given under C124. Of the constants and the vector and matrix aliases of xme.math only one constant is listed."},
{"property": "C127", "status": "partial", "theorems": ["construct_from_same", "construct_copies_by", "copy_initialise_derived", "copy_initialise_partial", "copy_initialise_refuted", "construct_from_derived_partial", "construct_from_derived_refuted"], "note": "False of the code: the copy and move constructors of LinkedList are explicit, so that a list can be neither copied with =, nor passed or returned by value from a variable; and objects of derived classes are taken as ranges, rvalues of them are copied. Proved: the choice for direct initialisation, for Array and Heap in every form."},
{"property": "C128", "status": "partial", "theorems": ["add_exact", "add_number", "add_unique", "add_text", "add_own_partial", "add_own_exact", "add_own_refuted", "push_front_own", "push_front_other"], "note": "False of the code: for element types that are ranges of themselves or that ranges convert to (paths, std::any, bool from arrays) the call is ambiguous or adds the elements. Proved exactly when the own type works. The universe of types is the one of OverModel."},
{"property": "C129", "status": "partial", "theorems": ["view_ctor_partial", "view_of_view", "view_ctor_refuted", "view_stride", "view_same_stride"], "note": "False of the code: arrays of a derived class are accepted as views of a base class and read with the wrong stride; other sources are accepted and fail inside the body; views of const elements cannot be made from views. Proved: which sources compile, for all inheritance relations."},
{"property": "C130", "status": "partial", "theorems": ["components_packed", "matrix_packed", "index_checked", "accesses_bytes_total", "quaternion_index_refuted"], "note": "Layout and addresses are proved for all sizes. Refuted: quaternions do not check the index (index 4 gives the address one past the object). Layout follows the common ABI of LayoutModel."},
{"property": "C131", "status": "partial", "theorems": ["index_objects_partial", "index_objects_refuted", "dot_objects_exact", "matrix_fill_objects_exact", "matrix_row_objects_exact"], "note": "False of the code: (&x)[i] leaves the object x, so that constant evaluation fails for every component but the first of vectors with 2 to 4 components. Proved exactly which of the functions work for which sizes."},
{"property": "C132", "status": "partial", "theorems": ["matrix_of_columns_partial", "matrix_of_columns_exact", "matrix_columns_counted", "matrix4_refuses", "matrix_of_columns_refuted", "matrix_of_matrix_exact", "matrix_of_matrix_partial", "matrix_of_matrix_refuted"], "note": "False of the code: columns with other elements do not compile for 2 to 4 rows (explicit constructors), 4x4 matrices do not convert, and a 4x4 matrix can be made from fewer than 4 columns, the rest being zero. Proved exactly what compiles."},
{"property": "C133", "status": "proved", "theorems": ["spsc_read_available_exact", "spsc_write_available_exact", "spsc_push_full", "spsc_push_room", "spsc_consume_oldest", "spsc_results"], "note": "A load is up to date if it reads the newest store; how soon stores become visible is up to the memory model. consume needs no such assumption: read_available has announced the element. spsc_consume_oldest allows the producer to run in between."},
{"property": "C134", "status": "proved", "theorems": ["det2_float_error", "det3_float_error", "det4_float_error", "det_float_finite", "det2_float32", "det3_float32", "det4_float32"], "note": "Error bounds for the expressions of the code, for any binary format with rounding to nearest even; the exact determinant is the expansion along the first row over the reals."},
{"property": "C135", "status": "partial", "theorems": ["det2_float_sign", "det_float32_sign_partial", "det3_float_singular_refuted", "det3_float_sign_refuted", "det2_float_zero_refuted"], "note": "For 2x2 the sign is right unless the result is zero, and singular matrices give zero. For 3x3 and 4x4 the sign is right if the result is larger than the error bound. Refuted in general: a singular 3x3 matrix of integers below 600 has determinant -2, one with determinant -1171 is computed as 644, and a 2x2 matrix with determinant 1 as 0."},
{"property": "C136", "status": "proved", "theorems": ["qmul_float_error", "qmul_float_finite", "qadd_float", "qmul_float32_norm"], "note": "The terms of the product are given by Hamilton's formula."},
{"property": "C137", "status": "proved", "theorems": ["translate_float_error", "scale_float", "rotate_float_error", "reflect_float_error"], "note": "Sine and cosine are any functions with a given error bound. Vectors have the element type of the matrix."},
{"property": "C138", "status": "partial", "theorems": ["fov_float_error", "box_float_error", "projection_float32_partial", "box_float32_partial", "projection_float_far_refuted"], "note": "Partial: a far plane at 2^127 overflows to an infinite entry (projection_float_far_refuted), so sizes are bounded by 2^b with 3b + 4 <= emax. The tangent is any function with a given relative error."},
{"property": "C139", "status": "partial", "theorems": ["tuple_like_partial", "pair_like_partial", "tuple_like_explicit_partial", "tuple_like_refuted", "tuple_like_explicit_refuted"], "note": "Partial: a Tuple with a volatile number is not tuple-like (tuple_like_refuted), and with explicit object parameters the question does not compile for a Tuple of several elements (tuple_like_explicit_refuted); the _partial theorems show that these are the only exceptions."},
{"property": "C140", "status": "partial", "theorems": ["assign_tuple_exact", "assign_pair_exact", "assign_moves", "assign_tuple_sizes_partial", "assign_tuple_sizes_refuted"], "note": "Partial: a longer source is taken and its last elements are dropped, and sources that cannot be assigned are not rejected but do not compile (assign_tuple_sizes_refuted). assign_tuple_exact says exactly what is rejected and what compiles. Without explicit object parameters."},
{"property": "C141", "status": "partial", "theorems": ["convert_tuple_partial", "convert_tuple_refuted", "convert_tuple_keeps"], "note": "Partial: the constraint tries lvalues that are not const, the body uses const ones, so that an aggregate with a reference member is offered and does not compile (convert_tuple_refuted). Without explicit object parameters, and if copies can be made of const objects, that is the only exception."},
{"property": "C142", "status": "partial", "theorems": ["common_reference_same", "common_reference_partial", "common_reference_refuted", "common_reference_symmetric"], "note": "Partial: the specialisation is not constrained, so that asking for the common reference of Tuples of different sizes, or with elements that have none, does not compile instead of giving no (common_reference_refuted); where there is one, it is as stated."},
{"property": "C143", "status": "partial", "theorems": ["common_type_partial", "common_with_partial", "common_with_refuted", "common_type_refuted"], "note": "Partial: the conversion operator uses braces, so that Tuple<int> does not convert to Tuple<unsigned>, its common type with that (common_with_refuted), and asking for the common type of Tuples of one size without one does not compile (common_type_refuted). Which conversions exist is stated exactly. C++20 without explicit object parameters."},
{"property": "C144", "status": "partial", "theorems": ["delegate_from_partial", "delegate_copies_partial", "delegate_assign_types", "delegate_claims", "delegate_from_refuted", "delegate_copies_refuted"], "note": "Partial: construction compiles exactly for rvalues that can be moved and copied and whose result is no value if R is void; named functors, functions, functors that only move and results to throw away are errors in a body, and nothing is ever rejected (delegate_from_refuted). Copies do not compile, although the type says that it can be copied (delegate_copies_refuted)."},
{"property": "C145", "status": "partial", "theorems": ["deduced_signature_partial", "deduced_signature_refuted"], "note": "Partial: a static or a volatile call operator has a signature but none is deduced; all other cases are exact."},
{"property": "C146", "status": "partial", "theorems": ["vector_construct_partial", "vector_construct_array", "vector_copy", "vector_construct_refuted"], "note": "Partial: exact for 2, 3 and 4 components. Vectors of other sizes take fewer scalars, the rest being zero, and no shorter vectors (vector_construct_refuted); vector_construct_array says exactly what they take."},
{"property": "C147", "status": "partial", "theorems": ["vector_accepts_partial", "vector_accepts_refuted"], "note": "Partial: for scalars the bodies compile, unless there are too many of them for more than four components; vectors of other sizes and any other type are accepted and do not compile (vector_accepts_refuted)."},
{"property": "C148", "status": "partial", "theorems": ["vector_implicit_partial", "vector_implicit_array", "vector_implicit_refuted"], "note": "Partial: exact for 2, 3 and 4 components; vectors of other sizes are made implicitly from scalars and from vectors of other elements."},
{"property": "C149", "status": "proved", "theorems": ["common_type_least", "common_type_order", "vector_deduced", "vector_deduced_copy", "vector_deduced_only", "quaternion_deduced"], "note": "The specification orders the arithmetic types by size, rank and sign, for an LP64 platform with signed char and wchar_t; casts are any functions that keep a value of the same type."},
{"property": "C150", "status": "partial", "theorems": ["matrix_deduced_partial", "matrix_deduced_refuted"], "note": "Partial: columns of 2, 3 or 4 components that do not have the common type are deduced but do not convert (matrix_deduced_refuted); all other cases are exact."},
{"property": "C151", "status": "partial", "theorems": ["view_deduced", "view_deduced_temporary_partial", "view_deduced_temporary", "view_deduced_temporary_refuted", "view_deduced_iterator"], "note": "Partial: temporary arrays of const elements, and const std::arrays moved from, are taken, so that the view dangles (view_deduced_temporary_refuted); other temporaries do not compile."},
{"property": "C152", "status": "proved", "theorems": ["tuple_deduced", "tuple_deduced_copy", "pair_deduced"], "note": "The specification is a relation between types of arguments and of members."},
{"property": "C153", "status": "proved", "theorems": ["determinant_singular", "determinant_invertible", "determinant_triple"], "note": "Over the real numbers, the last over every commutative ring."},
{"property": "C154", "status": "proved", "theorems": ["alias_glsl", "glsl_products"], "note": ""},
{"property": "C155", "status": "partial", "theorems": ["operator_exact", "compound_exact", "operator_compiles_partial", "operator_compiles_refuted", "operator_detects_partial", "operator_detects_refuted"], "note": "A matrix times a vector or matrix of another element type has an operator whose body does not compile (dot wants one type), though sums do; vectors and matrices accept every operand in overload resolution, so that a concept finds out nothing. operator_exact says which operators compile."},
{"property": "C156", "status": "proved", "theorems": ["array_relocations", "array_no_relocations", "array_drain", "array_drain_back"], "note": "Counted are move constructions and assignments of elements that exist before the call, not constructions from arguments."},
{"property": "C157", "status": "partial", "theorems": ["comparison_exact", "comparison_order", "comparison_symmetric", "comparison_value", "comparison_strict_partial", "comparison_strict_refuted"], "note": "Proved exactly which comparisons compile, what they compare, symmetry, and the property for vectors of 2 to 4 components, quaternions and numbers. Refuted for others by implicit conversions: a vector of 5 compares with a number, a 4x4 matrix with a vector; other comparisons with matrices, and of vectors of 5 with other types, are accepted by a concept but do not compile."},
{"property": "C158", "status": "proved", "theorems": ["accessor_exact", "accessor_const", "accessor_containers", "accessor_writes"], "note": "The concepts of range-v3 are taken to be those of std with the same name. Accesses outside of the sequence are undefined."},
{"property": "C159", "status": "partial", "theorems": ["accessor_writes", "view_const_partial", "view_const_refuted"], "note": "Proved for the accessors of the view itself, for views of const elements and as_bytes. Refuted for subview, first, last, copies and as_writable_bytes of a const view of elements that are not const: these are const members that give a view of the same T, while begin() and end() of a const view give const T."},
{"property": "C160", "status": "proved", "theorems": ["fused_default", "dot_fused_error", "dot_fused_finite", "cross_fused_error", "mat_vec_fused_error", "mat_mul_fused_error", "det2_fused_error", "det3_fused_error", "det4_fused_error", "det_fused_finite", "qmul_fused_error", "qmul_fused_finite"], "note": "A local variable that is used twice may be fused differently at each use, so that more results are covered than a compiler can produce. Only fusing is considered, no wider intermediate formats."},
{"property": "C161", "status": "partial", "theorems": ["dot_fused_symmetric", "dot_fused_square", "cross_fused_antisymmetric", "lerp_fused_ends", "det2_fused_sign_partial", "cross_fused_self_refuted", "det2_fused_singular_refuted", "det2_fused_sign_refuted"], "note": "Proved: symmetry and positivity of dot, antisymmetry of cross, the ends of lerp. Proved in part: the sign of a 2x2 determinant is right if the determinant is larger than the rounding error of one product. Refuted for smaller ones, for singular matrices and for cross(v, v), where the fused operation returns the rounding error of the other product."},
{"property": "C162", "status": "partial", "theorems": ["find_constant_exact", "find_simd_never_constant", "find_plain_constant", "find_reverse_constant_refuted", "reverse_constant_exact", "array_constant_exact", "array_constant_kept", "array_constant_refuted", "list_constant_exact", "list_constant_refuted"], "note": "Shown exactly which calls and programs are constant expressions. Not all are: find and reverse call functions that are not constexpr once the range is as long as a SIMD block (find also forms a pointer past the array if the array is shorter); Array assigns to elements that were not constructed, which the compiler rejects for numbers too; LinkedList converts the address of bytes to that of an element as soon as there is one."},
{"property": "C163", "status": "partial", "theorems": ["length_fused_default", "length_fused_error", "normalize_fused_error", "distance_fused_error", "length_fused_neg", "distance_fused_symmetric", "length_fused_agree_refuted"], "note": "Proved: the bounds of C84 and C85 and the symmetries. Refuted: v.length() of (4097, 3901) in float may have a value that length(v) never has, since its sum does not start with 0 and the first product can be fused. The bound for normalize has the hypotheses of C85 about overflow and underflow."},
{"property": "C164", "status": "partial", "theorems": ["destroy_each_once", "destroy_at_told", "destroy_at_told_refuted", "destroy_compiles", "destroy_n_partial", "destroy_n_refuted"], "note": "Proved: every element is destroyed once and in order, which calls compile, and exactly what the allocator hears of. Refuted: for arrays of arrays destroy_at_a passes over a destroy for elements, and destroy_a does so for arrays, where destroy_n_a does not."},
{"property": "C165", "status": "partial", "theorems": ["queue_one_thread_partial", "queue_one_thread_empty", "queue_callback_pop", "queue_callback_refuted", "queue_one_thread_refuted"], "note": "Proved for callbacks that push and ask for counts, for all other calls without restriction; removing from an empty queue is undefined if it is asserted or the type has a destructor. Refuted: a callback of consume that removes elements destroys the current element twice or makes later ones vanish, and pop of an empty queue of a trivial type goes unnoticed without assertions. SPSCQueue inherits privately and does not offer clear itself."},
{"property": "C166", "status": "partial", "theorems": ["delegate_inside_partial", "delegate_inside_gone", "delegate_inside_refuted"], "note": "Proved for all programs in which a functor does not use its members after it has been replaced; using them after the functor was destroyed is undefined behaviour for every size. Refuted: after its delegate was moved away, a small functor writes to bytes that stay behind while a big one keeps what it writes. Small functors must be relocatable as in C47."},
{"property": "C167", "status": "proved", "theorems": ["delegate_arguments", "delegate_arguments_compile"], "note": "Counts every copy and move exactly. delegate_arguments_refuted shows the price: an rvalue passed by value is moved twice where a direct call of a functor taking const T& moves nothing."},
{"property": "C168", "status": "proved", "theorems": ["bind_arguments", "bound_arguments", "bound_arguments_compile"], "note": "Counts every copy and move exactly. A const rvalue passes its bound arguments as const lvalues, as get has no overload for const rvalue tuples. With explicit object parameters two or more bound arguments cannot be accessed (both C102). The objects of the tuple and the callable are as in C50."},
{"property": "C169", "status": "partial", "theorems": ["array_sizes_partial", "array_sizes_empty", "heap_indices", "array_sizes_refuted"], "note": "Proved for ranges whose distance is a ptrdiff_t. Refuted for wider distances, as of views::iota over 64 bit numbers: the sum of the size and the distance wraps around and push_back writes past the end of the storage. This justifies the natural numbers of ArrayModel and HeapModel."},
{"property": "C170", "status": "proved", "theorems": ["make_tuple_arguments", "forward_as_tuple_arguments", "apply_arguments", "apply_arguments_compile", "convert_arguments", "tuple_cat_arguments", "tuple_assign_arguments", "tuple_swap_arguments", "make_pair_arguments", "pair_assign_arguments", "pair_swap_arguments"], "note": "Elements are objects, not references. tuple_cat is for lvalues, as it does not compile for rvalues (C105). Assignment is between distinct elements. Which of the calls compile is C105, C139 to C141."},
{"property": "C171", "status": "proved", "theorems": ["add_arguments", "insert_arguments", "queue_arguments", "consume_arguments"], "note": "For one argument of the element type that is not itself an element of the container. Relocations of other elements are C04 and C156, self-insertion is C13 and C72."}
]}
