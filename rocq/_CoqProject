-Q theories Verif
theories/Base.v
theories/Utf8.v
theories/Decimal.v
theories/DepUrl.v
theories/Serde.v
theories/Procedure.v
theories/SerPath.v
theories/SerQuery.v
theories/SerHeader.v
theories/SerRequest.v
theories/Status.v
theories/Json.v
theories/SerResponse.v
theories/DePath.v
theories/DeQuery.v
theories/DeHeader.v
theories/DeRequest.v
theories/DeResponse.v
theories/Router.v
theories/RouterSpec.v
theories/RouterProofs.v
theories/RouterProps.v
theories/UrlProofs.v
theories/ScalarSpec.v
theories/PathSpec.v
theories/PathProofs.v
theories/Msgpack.v
theories/PathTrip.v
theories/FieldSpec.v
theories/FieldProofs.v
theories/DepHttp.v
theories/Exhibit.v
theories/QueryProofs.v
theories/HeaderProofs.v
theories/FieldMore.v
theories/PathProps.v
theories/FieldProps.v
theories/RequestSpec.v
theories/RequestProofs.v
theories/RequestTrip.v
theories/MapSpec.v
theories/MapTrip.v
theories/RequestArrives.v
theories/RequestProps.v
theories/WrittenSpec.v
theories/WrittenTrip.v
theories/IntTrip.v
theories/MapProps.v
theories/ValueInd.v
theories/ResponseSpec.v
theories/ResponseProofs.v
theories/ResponseTrip.v
theories/ResponseProps.v
theories/Pool.v
theories/PoolSpec.v
theories/PoolProofs.v
theories/PoolProps.v
theories/PoolWrapSpec.v
theories/PoolWrap.v
theories/PoolWrapProps.v
theories/JsonText.v
theories/JsonSpec.v
theories/JsonProofs.v
theories/JsonDe.v
theories/JsonTrip.v
theories/JsonField.v
theories/JsonFieldProofs.v
theories/JsonProps.v
theories/Problem.v
theories/ProblemSpec.v
theories/ProblemProofs.v
theories/ProblemProps.v
theories/Error.v
theories/Client.v
theories/ClientSpec.v
theories/ClientProofs.v
theories/ClientProps.v
theories/Server.v
theories/ServerSpec.v
theories/ServerProofs.v
theories/ServerPoll.v
theories/ServerFairSpec.v
theories/ServerFair.v
theories/ServerProps.v
theories/ServerFairProps.v
theories/PoolSystem.v
theories/PoolSystemSpec.v
theories/PoolSystemProofs.v
theories/PoolSystemInv.v
theories/PoolSystemAddr.v
theories/PoolSystemGone.v
theories/PoolSystemReport.v
theories/PoolSystemProps.v
theories/PoolFairSpec.v
theories/PoolFair.v
theories/PoolFairProps.v
theories/EndToEndSpec.v
theories/EndToEnd.v
theories/EndToEndProps.v
theories/TypeSpec.v
theories/TypeProofs.v
theories/TypeProps.v
theories/SessionSpec.v
theories/SessionProofs.v
theories/SessionProps.v
theories/JsonSound.v
theories/ProblemExactSpec.v
theories/ProblemExact.v
theories/ExactProps.v
theories/JsonTypeSpec.v
theories/JsonType.v
theories/JsonTypeProps.v
theories/StatusSpec.v
theories/StatusProofs.v
theories/DecodeSpec.v
theories/DecodeProofs.v
theories/DecodeExact.v
theories/DecodeProps.v
theories/JsonWriteSpec.v
theories/JsonWrite.v
theories/JsonWriteProps.v
theories/Refusals.v
theories/FieldExtra.v
theories/PathRefused.v
theories/FieldExtraProps.v
theories/RefusalProps.v
theories/Utf8Spec.v
theories/Utf8Exact.v
theories/UrlSpec.v
theories/UrlExact.v
theories/UrlProps.v
theories/ElementSpec.v
theories/ElementProofs.v
theories/ElementProps.v
theories/PoolAnswerSpec.v
theories/PoolAnswer.v
theories/PoolAnswerProps.v
theories/PoolCauseSpec.v
theories/PoolCause.v
theories/PoolCauseProps.v
theories/PoolReceivedSpec.v
theories/PoolReceived.v
theories/PoolServed.v
theories/PoolServedProps.v
theories/TargetSpec.v
theories/Targets.v
theories/TargetProps.v
theories/Wake.v
theories/WakeSpec.v
theories/WakeProofs.v
theories/WakeServer.v
theories/WakeProps.v
theories/Once.v
theories/OnceSpec.v
theories/OnceProofs.v
theories/OnceProps.v
theories/HttpBytes.v
theories/HttpBytesSpec.v
theories/HttpBytesProofs.v
theories/HttpBytesSession.v
theories/HttpTargets.v
theories/HttpBytesLimits.v
theories/HttpBytesCounter.v
theories/HttpBytesProps.v
theories/PoolBytesSpec.v
theories/PoolBytes.v
theories/PoolBytesServed.v
theories/PoolBytesProps.v
theories/HttpBytesLeftSpec.v
theories/HttpBytesLeft.v
theories/HttpBytesLeftProps.v
theories/Duplex.v
theories/DuplexSpec.v
theories/DuplexProofs.v
theories/DuplexProps.v
theories/CutsSpec.v
theories/CutsProofs.v
theories/CutsProps.v
theories/MeaningSpec.v
theories/MeaningProofs.v
theories/MeaningProps.v
theories/Timeout.v
theories/TimeoutSpec.v
theories/TimeoutProofs.v
theories/TimeoutFair.v
theories/TimeoutProps.v
theories/OrderSpec.v
theories/OrderProofs.v
theories/OrderProps.v
theories/PoolCostSpec.v
theories/PoolCost.v
theories/PoolCostProps.v
theories/PoolBlackSpec.v
theories/PoolBlack.v
theories/PoolBlackProps.v
theories/GrowSpec.v
theories/Grow.v
theories/GrowProps.v
theories/JsonGrowSpec.v
theories/JsonGrow.v
theories/JsonGrowProps.v
theories/UnframedSpec.v
theories/Unframed.v
theories/UnframedProps.v
theories/ApartSpec.v
theories/Apart.v
theories/ApartProps.v
theories/ServerWake.v
theories/ServerWakeSpec.v
theories/ServerWakeProofs.v
theories/ServerWakeProps.v
theories/WholeSpec.v
theories/Whole.v
theories/WholeProps.v
theories/TargetParts.v
theories/TargetPartsProps.v
theories/WakeTimeout.v
theories/WakeTimeoutSpec.v
theories/WakeTimeoutProofs.v
theories/WakeTimeoutProps.v
theories/Footprint.v
theories/FootprintSpec.v
theories/FootprintProofs.v
theories/FootprintProps.v
theories/EntryMacro.v
theories/EntryMacroSpec.v
theories/EntryMacroProofs.v
theories/EntryMacroProps.v
theories/Invoke.v
theories/InvokeSpec.v
theories/InvokeProofs.v
theories/InvokeProps.v
theories/PoolOnceSpec.v
theories/PoolOnceProofs.v
theories/PoolOnceIndex.v
theories/PoolOnce.v
theories/PoolOnceProps.v
theories/PoolTurnSpec.v
theories/PoolTurn.v
theories/PoolTurnProps.v
theories/ClientFoot.v
theories/ClientFootSpec.v
theories/ClientFootProofs.v
theories/ClientFootProps.v
theories/PoolLoadSpec.v
theories/PoolLoad.v
theories/PoolLoadProps.v
theories/PoolApartSpec.v
theories/PoolApart.v
theories/PoolApartProps.v
theories/OwnTests.v
theories/RelaySpec.v
theories/Relay.v
theories/RelayProps.v
theories/EconomySpec.v
theories/Economy.v
theories/EconomyProps.v
theories/GrowthSpec.v
theories/Growth.v
theories/GrowthProps.v
theories/ClashSpec.v
theories/Clash.v
theories/ClashCalls.v
theories/ClashProps.v
theories/DeploySpec.v
theories/Deploy.v
theories/DeployProps.v
theories/RequestLineProps.v
