-Q theories Verif
theories/Algebra.v
theories/Util.v
theories/Poly.v
theories/Schema.v
theories/SchemaProofs.v
theories/Plonk.v
theories/PowLagrange.v
theories/PlonkSpec.v
theories/PlonkProofs.v
theories/MultiopenProofs.v
theories/Keys.v
theories/ApiProofs.v
theories/Properties_Api.v
theories/PField.v
theories/Gate.v
theories/GateProofs.v
theories/GateOps.v
theories/GateExtra.v
theories/Properties_Gate.v
theories/RangeProofs.v
theories/Bn254.v
theories/Integer.v
theories/IntegerFacts.v
theories/IntegerSound.v
theories/IntegerOps.v
theories/Primality.v
theories/Bn254Cert.v
theories/Bn254Prime.v
theories/IntegerComplete.v
theories/IntegerComplete2.v
theories/IntegerComplete3.v
theories/IntegerHistory.v
theories/IntegerHistorySound.v
theories/IntegerHistoryComplete.v
theories/CircuitCheck.v
theories/Properties_Integer.v
theories/Curve.v
theories/CurveIdent.v
theories/CurveAssoc.v
theories/Bn254Curve.v
theories/Ecc.v
theories/IntegerValue.v
theories/EccSound.v
theories/EccScalar.v
theories/EccMul.v
theories/EccHistory.v
theories/EccComplete.v
theories/EccMulComplete.v
theories/EccReady.v
theories/EccHonest.v
theories/EccLucky.v
theories/GeneratorCert.v
theories/GeneratorOrder.v
theories/CurveOrder.v
theories/Properties_Ecc.v
theories/Properties_EccHonest.v
theories/Bytes.v
theories/ShaTranscript.v
theories/ShaProofs.v
theories/Poseidon.v
theories/PoseidonSpec.v
theories/PoseidonProofs.v
theories/PoseidonInst.v
theories/Properties_Transcript.v
theories/ListFacts.v
theories/BuildParams.v
theories/ReaderSpec.v
theories/ReaderProofs.v
theories/ReaderMain.v
theories/ReaderTail.v
theories/AggregationProofs.v
theories/Properties_Reader.v
theories/Evm.v
theories/EvmProofs.v
theories/Properties_Contract.v
theories/SolIr.v
theories/SolScan.v
theories/SolAgg.v
theories/SolPool.v
theories/SolSem.v
theories/SolIntervals.v
theories/SolMulAdd.v
theories/SolScanProofs.v
theories/SolAggDriver.v
theories/SolAggProofs.v
theories/SolMemOpt.v
theories/Properties_Codegen.v
theories/ChipRun.v
theories/SolChip.v
theories/SolChipProofs.v
theories/SolEmit.v
theories/SolSharing.v
theories/Properties_Emission.v
theories/VerifyCircuit.v
theories/VerifyCircuitProofs.v
theories/Properties_Circuit.v
theories/Calls.v
theories/VerifierCalls.v
theories/CallsSim.v
theories/VerifierCallsProofs.v
theories/VerifierCallsTop.v
theories/Properties_Calls.v
theories/CurveMod.v
theories/SolCalls.v
theories/SolCallsProofs.v
theories/SolCheck.v
theories/Properties_EndToEnd.v
theories/CallKinds.v
theories/CircuitRun.v
theories/CircuitRunSpec.v
theories/CircuitSponge.v
theories/CircuitRunProofs.v
theories/CircuitRunTop.v
theories/Properties_CircuitRun.v
theories/CallOrder.v
theories/CircuitHonest.v
theories/CircuitHonestTop.v
theories/ExponentRun.v
theories/Properties_CircuitComplete.v
theories/Shape.v
theories/ShapeRun.v
theories/Properties_Layout.v
theories/Measure.v
theories/MeasureForms.v
theories/MeasureProofs.v
theories/CallExact.v
theories/MeasureHonest.v
theories/MeasureSingle.v
theories/Properties_Measure.v
theories/Grid.v
theories/GridProofs.v
theories/Properties_Grid.v
theories/Mulexp.v
theories/Properties_Mulexp.v
theories/SolText.v
theories/SolRead.v
theories/SolTextSpec.v
theories/SolTextLex.v
theories/SolTextProofs.v
theories/SolTextPasses.v
theories/Properties_Text.v
theories/Properties_Range.v
theories/SolTextCheck.v
theories/Properties_TextKey.v
