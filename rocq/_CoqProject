-Q theories Verif

theories/Bitmap_model.v
theories/Bitmap_spec.v
theories/Bitmap_proofs.v
theories/Bitmap_props.v
theories/Lazy_model.v
theories/Lazy_spec.v
theories/Lazy_proofs.v
theories/Lazy_props.v
theories/Heap_model.v
theories/Heap_spec.v
theories/Heap_proofs.v
theories/Heap_props.v
theories/Matq_model.v
theories/Matq_spec.v
theories/Matq_proofs.v
theories/Matq_proofs2.v
theories/Matq_proofs3.v
theories/Matq_proofs4.v
theories/Matq_proofs5.v
theories/Matq_props.v
theories/Vec_model.v
theories/Vec_spec.v
theories/Vec_proofs.v
theories/Vec_props.v
theories/Slice_model.v
theories/Slice_spec.v
theories/Slice_proofs.v
theories/Slice_proofs2.v
theories/Slice_props.v
theories/Stl_model.v
theories/Stl_spec.v
theories/Stl_proofs.v
theories/Stl_proofs2.v
theories/Stl_props.v
theories/Stltext_model.v
theories/Stltext_spec.v
theories/Stltext_proofs.v
theories/Stltext_proofs2.v
theories/Stltext_proofs3.v
theories/Stltext_proofs4.v
theories/Stltext_proofs5.v
theories/Stltext_proofs6.v
theories/Stltext_props.v
theories/Utf8_model.v
theories/Utf8_spec.v
theories/Utf8_proofs.v
theories/Utf8_proofs2.v
theories/Utf8_props.v
theories/List_model.v
theories/List_spec.v
theories/List_proofs.v
theories/List_props.v
theories/Dict_model.v
theories/Dict_spec.v
theories/Dict_proofs.v
theories/Dict_proofs2.v
theories/Dict_proofs3.v
theories/Dict_props.v
theories/Pool_model.v
theories/Pool_spec.v
theories/Pool_proofs.v
theories/Pool_props.v
theories/Loc_model.v
theories/Loc_spec.v
theories/Loc_proofs.v
theories/Loc_props.v
theories/Sieve_model.v
theories/Sieve_spec.v
theories/Sieve_proofs.v
theories/Sieve_proofs2.v
theories/Color_table.v
theories/Sieve_props.v
theories/Str_model.v
theories/Str_spec.v
theories/Str_proofs.v
theories/Str_props.v
theories/Arg_model.v
theories/Arg_spec.v
theories/Arg_proofs.v
theories/Arg_props.v
theories/Reduce_model.v
theories/Reduce_spec.v
theories/Reduce_proofs.v
theories/Reduce_proofs2.v
theories/Reduce_proofs3.v
theories/Reduce_props.v
theories/Sweep_model.v
theories/Sweep_spec.v
theories/Sweep_proofs.v
theories/Sweep_proofs2.v
theories/Sweep_proofs3.v
theories/Sweep_proofs4.v
theories/Sweep_props.v
theories/Dedup_model.v
theories/Dedup_spec.v
theories/Dedup_proofs.v
theories/Dedup_proofs2.v
theories/Dedup_props.v
theories/Poly_model.v
theories/Poly_spec.v
theories/Poly_proofs.v
theories/Poly_proofs2.v
theories/Poly_proofs3.v
theories/Poly_proofs4.v
theories/Poly_proofs5.v
theories/Poly_proofs6.v
theories/Poly_proofs7.v
theories/Poly_proofs8.v
theories/Poly_props.v
theories/Tri_model.v
theories/Tri_spec.v
theories/Tri_proofs.v
theories/Tri_proofs2.v
theories/Tri_proofs3.v
theories/Tri_proofs4.v
theories/Tri_proofs5.v
theories/Tri_props.v
theories/Js_model.v
theories/Js_spec.v
theories/Js_proofs.v
theories/Js_proofs2.v
theories/Js_props.v
theories/Csg3_model.v
theories/Csg3_spec.v
theories/Csg3_proofs.v
theories/Csg3_proofs2.v
theories/Csg3_props.v
theories/Bb_model.v
theories/Bb_spec.v
theories/Bb_proofs.v
theories/Bb_props.v
theories/Mesh_spec.v
theories/Mesh_proofs.v
theories/Tower_model.v
theories/Tower_spec.v
theories/Tower_proofs.v
theories/Tower_proofs2.v
theories/Tower_props.v
theories/Rot_model.v
theories/Rot_spec.v
theories/Rot_proofs.v
theories/Rot_proofs2.v
theories/Rot_proofs3.v
theories/Rot_props.v
theories/Xml_model.v
theories/Xml_spec.v
theories/Xml_proofs.v
theories/Xml_proofs2.v
theories/Xml_proofs3.v
theories/Xml_proofs4.v
theories/Xml_spec2.v
theories/Xml_proofs5.v
theories/Xml_proofs6.v
theories/Xml_props.v
theories/Syn_model.v
theories/Syn_spec.v
theories/Syn_proofs.v
theories/Syn_proofs2.v
theories/Syn_proofs3.v
theories/Syn_proofs4.v
theories/Syn_proofs5.v
theories/Syn_proofs6.v
theories/Syn_proofs7.v
theories/Syn_proofs8.v
theories/Syn_proofs9.v
theories/Syn_props.v
theories/Hull_model.v
theories/Hull_spec.v
theories/Hull_proofs.v
theories/Hull_proofs2.v
theories/Hull_props.v
theories/Circle_model.v
theories/Circle_spec.v
theories/Circle_proofs.v
theories/Circle_proofs2.v
theories/Circle_props.v
theories/Lin_model.v
theories/Lin_spec.v
theories/Lin_proofs.v
theories/Lin_proofs2.v
theories/Ball_model.v
theories/Ball_spec.v
theories/Ball_proofs.v
theories/Lin_proofs3.v
theories/Lin_props.v
theories/Ball_props.v
theories/Snap_model.v
theories/Snap_spec.v
theories/Snap_proofs.v
theories/Snap_proofs2.v
theories/Snap_proofs3.v
theories/Snap_proofs4.v
theories/Snap_props.v
theories/Aug_model.v
theories/Aug_spec.v
theories/Aug_proofs.v
theories/Aug_proofs2.v
theories/Aug_proofs3.v
theories/Aug_proofs4.v
theories/Aug_props.v
theories/Ptr_model.v
theories/Ptr_spec.v
theories/Ptr_proofs.v
theories/Ptr_proofs2.v
theories/Ptr_proofs3.v
theories/Ptr_proofs4.v
theories/Ptr_proofs5.v
theories/Ptr_proofs6.v
theories/Ptr_proofs7.v
theories/Ptr_proofs8.v
theories/Ptr_proofs9.v
theories/Ptr_proofs10.v
theories/Ptr_props.v
theories/Layer_model.v
theories/Layer_spec.v
theories/Layer_proofs.v
theories/Layer_proofs2.v
theories/Layer_props.v
theories/Meet_model.v
theories/Meet_spec.v
theories/Meet_proofs.v
theories/Meet_proofs2.v
theories/Meet_props.v
theories/Svgpath_model.v
theories/Svgpath_spec.v
theories/Svgpath_proofs.v
theories/Svgpath_proofs2.v
theories/Svgpath_proofs3.v
theories/Svgpath_props.v
theories/Svgdoc_model.v
theories/Svgdoc_spec.v
theories/Svgdoc_proofs.v
theories/Svgdoc_props.v
theories/Svgattr_model.v
theories/Svgattr_spec.v
theories/Svgattr_proofs.v
theories/Svgattr_props.v
