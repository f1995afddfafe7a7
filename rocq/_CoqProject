-Q theories Verif

theories/NumTheory.v
theories/Field.v
theories/ZpField.v
theories/Primes.v
theories/Rust.v
theories/ListAux.v
theories/Primitives.v
theories/Specs.v
theories/Grain.v
theories/Mds.v
theories/Bn256.v
theories/Pasta.v
theories/BaseHash.v
theories/SpecHash.v
theories/Perm_proof.v
theories/Sponge_proof.v
theories/Compact_proof.v
theories/BigSum.v
theories/Bij_proof.v
theories/Mds_proof.v
theories/BaseHash_proof.v
theories/Grain_proof.v
theories/GrainTerm_proof.v
theories/Const_proof.v
theories/Link.v
theories/Base_claims.v
theories/ExamplesBase.v
theories/PropertiesBase.v
theories/Halo2.v
theories/Septidon.v
theories/SeptVal_proof.v
theories/SeptGate_proof.v
theories/PermuteChip.v
theories/ChipUse.v
theories/Layout_proof.v
theories/Contract.v
theories/SeptBlock_proof.v
theories/SeptLayout_proof.v
theories/SeptChip_proof.v
theories/Stack_proof.v
theories/Sept_claims.v
theories/ExamplesSept.v
theories/PropertiesSept.v
theories/Pow5.v
theories/Pow5Gate_proof.v
theories/Pow5Rows_proof.v
theories/Pow5Block_proof.v
theories/Pow5Chip_proof.v
theories/Built.v
theories/Trace_proof.v
theories/Pow5Use.v
theories/Pow5Use_proof.v
theories/Pow5Honest_proof.v
theories/Pow5_claims.v
theories/ExamplesPow5.v
theories/PropertiesPow5.v
theories/Gadget.v
theories/GadgetUse.v
theories/Gadget_proof.v
theories/Gadget_claims.v
theories/WitnessUse.v
theories/GadgetUnique_proof.v
theories/ExamplesGadget.v
theories/PropertiesGadget.v
theories/SpongeTable.v
theories/TableRows_proof.v
theories/TableLoad_proof.v
theories/TableUse.v
theories/TableInv_proof.v
theories/TableGate_proof.v
theories/TableSound_proof.v
theories/TableMsg_proof.v
theories/TableVals_proof.v
theories/TableHonest_proof.v
theories/TableSat_proof.v
theories/TableState_proof.v
theories/Table_claims.v
theories/TableLayout_claims.v
theories/TableBuild_claims.v
theories/ExamplesTable.v
theories/PropertiesTable.v
theories/LookupUse.v
theories/TableLookup_claims.v
theories/TableRange_claims.v
theories/ExamplesLookup.v
theories/PropertiesLookup.v
theories/GrainUse.v
theories/GrainField_claims.v
theories/ExamplesGrain.v
theories/PropertiesGrain.v
theories/DegreeUse.v
theories/Degree_claims.v
theories/Bij_claims.v
theories/ExamplesMore.v
theories/PropertiesMore.v
theories/CollisionUse.v
theories/Collision_claims.v
theories/TableForge_claims.v
theories/ExamplesCollision.v
theories/PropertiesCollision.v
theories/CostUse.v
theories/Cost_proof.v
theories/Cost_claims.v
theories/ExamplesCost.v
theories/PropertiesCost.v
theories/KeyUse.v
theories/Key_claims.v
theories/ExamplesKey.v
theories/PropertiesKey.v
theories/SboxUse.v
theories/Sbox_proof.v
theories/Sbox_claims.v
theories/ExamplesSbox.v
theories/PropertiesSbox.v
theories/Rounds_claims.v
theories/ExamplesRounds.v
theories/PropertiesRounds.v
theories/SpecCall_claims.v
theories/ExamplesSpecCall.v
theories/PropertiesSpecCall.v
theories/SboxSpec.v
theories/SboxSpec_claims.v
theories/ExamplesSboxSpec.v
theories/PropertiesSboxSpec.v
theories/Degree5_claims.v
theories/ExamplesDegree5.v
theories/PropertiesDegree5.v
theories/BytesUse.v
theories/Bytes_claims.v
theories/ExamplesBytes.v
theories/PropertiesBytes.v
theories/PathUse.v
theories/Path_claims.v
theories/ExamplesPath.v
theories/PropertiesPath.v
theories/ExamplesVectors.v
theories/SubspaceUse.v
theories/Subspace_claims.v
theories/PropertiesSubspace.v
theories/ExactUse.v
theories/TableExact_proof.v
theories/Exact_claims.v
theories/ExamplesExact.v
theories/PropertiesExact.v
theories/Sqrt.v
theories/SqrtUse.v
theories/Sqrt_proof.v
theories/Sqrt_claims.v
theories/ExamplesSqrt.v
theories/PropertiesSqrt.v
theories/ProgramUse.v
theories/Program_claims.v
theories/ExamplesProgram.v
theories/PropertiesProgram.v
theories/PolyUse.v
theories/Poly_proof.v
theories/Poly_claims.v
theories/ExamplesPoly.v
theories/PropertiesPoly.v
theories/Tables.v
theories/Tables_claims.v
theories/ExamplesTables.v
theories/PropertiesTables.v
theories/DiffUse.v
theories/Diff_proof.v
theories/Diff_claims.v
theories/ExamplesDiff.v
theories/PropertiesDiff.v
theories/Dist_claims.v
theories/ExamplesDist.v
theories/PropertiesDist.v
theories/Cross_claims.v
theories/ExamplesCross.v
theories/PropertiesCross.v
theories/Workers.v
theories/Workers_claims.v
theories/ExamplesWorkers.v
theories/PropertiesWorkers.v
theories/Order_proof.v
theories/Order_claims.v
theories/Fixed_claims.v
theories/ExamplesOrder.v
theories/PropertiesOrder.v
theories/SessionUse.v
theories/Session_claims.v
theories/ExamplesSession.v
theories/PropertiesSession.v
theories/PreimageUse.v
theories/Preimage_claims.v
theories/ExamplesPreimage.v
theories/PropertiesPreimage.v
theories/GraphUse.v
theories/Graph_claims.v
theories/ExamplesGraph.v
theories/PropertiesGraph.v
theories/PermuteUse.v
theories/Permute_claims.v
theories/ExamplesPermute.v
theories/PropertiesPermute.v
theories/SeptidonUse.v
theories/Septidon_claims.v
theories/ExamplesSeptidon.v
theories/PropertiesSeptidon.v
theories/SeptUtil.v
theories/SeptUtil_claims.v
theories/ExamplesSeptUtil.v
theories/PropertiesSeptUtil.v
theories/ColumnsUse.v
theories/Columns_claims.v
theories/ExamplesColumns.v
theories/PropertiesColumns.v
theories/Limbs.v
theories/LimbsSpec.v
theories/Limbs_claims.v
theories/ExamplesLimbs.v
theories/PropertiesLimbs.v
